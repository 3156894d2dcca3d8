(** Display and FromStr of IP addresses are inverse on every address. *)
From Verif Require Import Bytes Ip NomLemmas.
Local Open Scope N_scope.

(** ** Numbers *)
Definition ddigit (radix c : N) : bool := match parse_digit radix c with Some _ => true | None => false end.
Lemma ddigit_10_16 c : ddigit 10 c = true -> ddigit 16 c = true.
Proof.
  unfold ddigit, parse_digit. cbn [N.ltb N.compare Pos.compare Pos.compare_cont].
  destruct ((48 <=? c) && (c <=? 57)); [auto|]. cbn [andb]. discriminate.
Qed.

Lemma read_loop_app radix maxd upto : forall ds r acc count,
  Forall (fun c => ddigit radix c = true) ds -> stops (ddigit radix) r ->
  read_number_loop radix maxd upto (ds ++ r) acc count =
  match read_number_loop radix maxd upto ds acc count with Some (v, _) => Some (v, r) | None => None end.
Proof.
  induction ds as [|c ds IH]; intros r acc count Hd Hr.
  - cbn [app]. destruct r as [|c r]; cbn [read_number_loop].
    + destruct (Nat.eqb count 0); reflexivity.
    + cbn in Hr. unfold ddigit in Hr. destruct (parse_digit radix c); [discriminate|].
      destruct (Nat.eqb count 0); reflexivity.
  - inversion Hd as [|? ? Hc Hds]; subst. cbn [app read_number_loop]. unfold ddigit in Hc.
    destruct (parse_digit radix c) as [d|]; [|discriminate].
    destruct (_ || _); [reflexivity|]. now apply IH.
Qed.
(** A number read is a non-empty run of digits. *)
Lemma read_loop_split radix maxd upto : forall s acc count v r,
  read_number_loop radix maxd upto s acc count = Some (v, r) ->
  exists ds, s = ds ++ r /\ Forall (fun c => ddigit radix c = true) ds.
Proof.
  induction s as [|c s IH]; intros acc count v r H; cbn [read_number_loop] in H.
  - destruct (Nat.eqb count 0); [discriminate|]. injection H as _ <-. exists []. auto.
  - destruct (parse_digit radix c) as [d|] eqn:E.
    + destruct (_ || _); [discriminate|]. apply IH in H. destruct H as (ds & -> & Hd).
      exists (c :: ds). split; [reflexivity|]. constructor; [|exact Hd]. unfold ddigit. now rewrite E.
    + destruct (Nat.eqb count 0); [discriminate|]. injection H as _ <-. exists []. auto.
Qed.
Lemma read_loop_bound radix maxd upto : forall s acc count v r,
  acc < upto -> read_number_loop radix maxd upto s acc count = Some (v, r) -> v < upto.
Proof.
  induction s as [|c s IH]; intros acc count v r Hb H; cbn [read_number_loop] in H.
  - destruct (Nat.eqb count 0); [discriminate|]. injection H as <- <-. exact Hb.
  - destruct (parse_digit radix c) as [d|] eqn:E.
    + destruct (Nat.ltb maxd (S count) || (upto <=? acc * radix + d)) eqn:E2; [discriminate|].
      apply orb_false_iff in E2. destruct E2 as [_ E2]. apply N.leb_gt in E2. eauto.
    + destruct (Nat.eqb count 0); [discriminate|]. injection H as <- <-. exact Hb.
Qed.
Lemma read_number_bound radix maxd upto s v r : 0 < upto ->
  read_number radix maxd upto s = Some (v, r) -> v < upto.
Proof. intros H. now apply read_loop_bound. Qed.

Definition below (n : nat) : list N := map N.of_nat (seq 0 n).
Lemma in_below n x : x < N.of_nat n -> In x (below n).
Proof.
  intros H. apply in_map_iff. exists (N.to_nat x). split; [apply N2Nat.id|]. apply in_seq. lia.
Qed.
Definition addr_char (c : N) : bool := negb (c =? 93) && negb (c =? 58) && negb (c =? 46).
Lemma u8_check : forallb (fun n =>
  forallb (fun c => ddigit 10 c && addr_char c) (show_u8 n) &&
  match read_number 10 3 256 (show_u8 n) with Some (v, []) => v =? n | _ => false end) (below 256) = true.
Proof. vm_compute. reflexivity. Qed.
Lemma digit_check : forallb (fun d =>
  match parse_digit 16 (hex_digit d) with Some v => v =? d | None => false end && addr_char (hex_digit d))
  (below 16) = true.
Proof. vm_compute. reflexivity. Qed.
Lemma digit_ok d : d < 16 -> parse_digit 16 (hex_digit d) = Some d /\ addr_char (hex_digit d) = true.
Proof.
  intros H. pose proof digit_check as P. rewrite forallb_forall in P. specialize (P d (in_below 16 d H)).
  apply andb_true_iff in P. destruct P as [P1 P2]. split; [|exact P2].
  destruct (parse_digit 16 (hex_digit d)) as [v|]; [|discriminate]. apply N.eqb_eq in P1. now subst.
Qed.
Lemma digit_ok' d : d < 16 -> ddigit 16 (hex_digit d) = true /\ addr_char (hex_digit d) = true.
Proof. intros H. destruct (digit_ok d H) as [H1 H2]. unfold ddigit. now rewrite H1. Qed.
Lemma read_digit d s acc count : d < 16 -> (count < 4)%nat -> acc * 16 + d < 65536 ->
  read_number_loop 16 4 65536 (hex_digit d :: s) acc count = read_number_loop 16 4 65536 s (acc * 16 + d) (S count).
Proof.
  intros Hd Hc Hb. cbn [read_number_loop]. destruct (digit_ok d Hd) as [-> _].
  replace (Nat.ltb 4 (S count)) with false by (symmetry; apply Nat.ltb_ge; lia).
  replace (65536 <=? acc * 16 + d) with false by (symmetry; apply N.leb_gt; lia). reflexivity.
Qed.

Lemma u8_ok n : n < 256 ->
  Forall (fun c => ddigit 10 c = true /\ addr_char c = true) (show_u8 n)
  /\ read_number 10 3 256 (show_u8 n) = Some (n, []).
Proof.
  intros H. pose proof u8_check as P. rewrite forallb_forall in P. specialize (P n (in_below 256 n H)).
  apply andb_true_iff in P. destruct P as [P1 P2]. rewrite forallb_forall in P1. split.
  - apply Forall_forall. intros c Hc. apply andb_true_iff. now apply P1.
  - destruct (read_number 10 3 256 (show_u8 n)) as [[v [|? ?]]|]; try discriminate.
    apply N.eqb_eq in P2. now subst.
Qed.
Lemma hex_ok n : n < 65536 ->
  Forall (fun c => ddigit 16 c = true /\ addr_char c = true) (show_hex n) /\ show_hex n <> []
  /\ read_number 16 4 65536 (show_hex n) = Some (n, []).
Proof.
  intros H.
  assert (M : forall m, m mod 16 < 16) by (intros m; apply N.mod_lt; discriminate).
  assert (E : forall m, 16 * (m / 16) + m mod 16 = m) by (intros m; symmetry; apply N.div_mod; discriminate).
  pose proof (E n) as E1. pose proof (E (n / 16)) as E2. pose proof (E (n / 16 / 16)) as E3.
  pose proof (M n) as M1. pose proof (M (n / 16)) as M2. pose proof (M (n / 16 / 16)) as M3.
  assert (D2 : n / 256 = n / 16 / 16) by (rewrite N.div_div by discriminate; reflexivity).
  assert (D3 : n / 4096 = n / 16 / 16 / 16) by (rewrite !N.div_div by discriminate; reflexivity).
  unfold show_hex. rewrite D2, D3. clear D2 D3 M E.
  generalize dependent (n mod 16). generalize dependent ((n / 16) mod 16). generalize dependent ((n / 16 / 16) mod 16).
  generalize dependent (n / 16 / 16 / 16). generalize dependent (n / 16 / 16). generalize dependent (n / 16).
  intros q1 q2 q3 r3 E3 M3 r2 E2 M2 r1 E1 M1.
  destruct (n <? 16) eqn:C1; [apply N.ltb_lt in C1|apply N.ltb_ge in C1;
  destruct (n <? 256) eqn:C2; [apply N.ltb_lt in C2|apply N.ltb_ge in C2;
  destruct (n <? 4096) eqn:C3; [apply N.ltb_lt in C3|apply N.ltb_ge in C3]]].
  all: repeat split; try discriminate.
  all: try (repeat (apply Forall_cons || apply Forall_nil); apply digit_ok'; lia).
  all: unfold read_number; repeat (rewrite read_digit by lia); cbn [read_number_loop Nat.eqb].
  all: do 2 f_equal; lia.
Qed.
Lemma read_u8 n r : n < 256 -> stops (ddigit 10) r -> read_number 10 3 256 (show_u8 n ++ r) = Some (n, r).
Proof.
  intros Hn Hr. destruct (u8_ok n Hn) as [H1 H2]. unfold read_number in *.
  rewrite read_loop_app; [now rewrite H2| |exact Hr]. eapply Forall_impl; [|exact H1]. cbn. tauto.
Qed.
Lemma read_hex n r : n < 65536 -> stops (ddigit 16) r -> read_number 16 4 65536 (show_hex n ++ r) = Some (n, r).
Proof.
  intros Hn Hr. destruct (hex_ok n Hn) as (H1 & _ & H2). unfold read_number in *.
  rewrite read_loop_app; [now rewrite H2| |exact Hr]. eapply Forall_impl; [|exact H1]. cbn. tauto.
Qed.

(** ** IPv4 *)
Lemma read_show_ipv4 a r : wf_ipv4 a -> stops (ddigit 10) r -> read_ipv4_addr (show_ipv4 a ++ r) = Some (a, r).
Proof.
  destruct a as [[[a b] c] d]. intros (Ha & Hb & Hc & Hd) Hr. unfold show_ipv4. rewrite <- !app_assoc.
  unfold read_ipv4_addr. rewrite read_u8 by (auto; reflexivity). cbn [app read_given_char].
  change (46 =? 46) with true. cbn iota.
  rewrite read_u8 by (auto; reflexivity). cbn [app read_given_char]. change (46 =? 46) with true. cbn iota.
  rewrite read_u8 by (auto; reflexivity). cbn [app read_given_char]. change (46 =? 46) with true. cbn iota.
  now rewrite read_u8.
Qed.
Theorem ipv4_round_trip a : wf_ipv4 a -> ipv4_from_str (show_ipv4 a) = Some a.
Proof.
  intros H. unfold ipv4_from_str. rewrite <- (app_nil_r (show_ipv4 a)). now rewrite read_show_ipv4.
Qed.
Lemma read_ipv4_wf s a r : read_ipv4_addr s = Some (a, r) -> wf_ipv4 a.
Proof.
  unfold read_ipv4_addr.
  destruct (read_number 10 3 256 s) as [[a1 s1]|] eqn:E1; [|discriminate].
  destruct (read_given_char 46 s1) as [s1'|]; [|discriminate].
  destruct (read_number 10 3 256 s1') as [[a2 s2]|] eqn:E2; [|discriminate].
  destruct (read_given_char 46 s2) as [s2'|]; [|discriminate].
  destruct (read_number 10 3 256 s2') as [[a3 s3]|] eqn:E3; [|discriminate].
  destruct (read_given_char 46 s3) as [s3'|]; [|discriminate].
  destruct (read_number 10 3 256 s3') as [[a4 s4]|] eqn:E4; [|discriminate].
  intros H. injection H as <- <-. apply read_number_bound in E1, E2, E3, E4; try lia. cbn. auto.
Qed.
(** A run of hexadecimal digits not followed by a dot is not an IPv4 address. *)
Lemma hex_not_ipv4 h r : Forall (fun c => ddigit 16 c = true /\ addr_char c = true) h ->
  stops (fun c => ddigit 16 c || (c =? 46)) r -> read_ipv4_addr (h ++ r) = None.
Proof.
  intros Hh Hr. unfold read_ipv4_addr.
  destruct (read_number 10 3 256 (h ++ r)) as [[v s1]|] eqn:E; [|reflexivity].
  apply read_loop_split in E. destruct E as (ds & E & Hds).
  enough (H : read_given_char 46 s1 = None) by now rewrite H.
  destruct (app_eq_app _ _ _ _ E) as (l & [[-> ->]|[-> ->]]).
  - destruct l as [|c l].
    + cbn. destruct r as [|c r]; [reflexivity|]. cbn in Hr. apply orb_false_iff in Hr. destruct Hr as [_ Hr].
      cbn. now rewrite Hr.
    + cbn. apply Forall_app in Hh. destruct Hh as [_ Hh]. inversion Hh as [|? ? [_ Hc] _]; subst.
      unfold addr_char in Hc. apply andb_true_iff in Hc. destruct Hc as [_ Hc].
      apply negb_true_iff in Hc. now rewrite Hc.
  - destruct l as [|c l].
    + cbn in Hr. destruct s1 as [|c s1]; [reflexivity|]. cbn in Hr. apply orb_false_iff in Hr.
      destruct Hr as [_ Hr]. cbn. now rewrite Hr.
    + cbn in Hr. apply orb_false_iff in Hr. destruct Hr as [Hr _]. apply Forall_app in Hds.
      destruct Hds as [_ Hds]. inversion Hds as [|? ? Hc _]; subst. apply ddigit_10_16 in Hc. congruence.
Qed.

(** ** IPv6 groups *)
Definition tail_text (gs : list N) : bytes := concat (map (fun g => 58 :: show_hex g) gs).
Lemma show_groups_cons g gs : show_groups (g :: gs) = show_hex g ++ tail_text gs.
Proof.
  revert g. induction gs as [|g' gs IH]; intros g; [cbn; now rewrite app_nil_r|].
  change (show_groups (g :: g' :: gs)) with (show_hex g ++ [58] ++ show_groups (g' :: gs)).
  rewrite IH. reflexivity.
Qed.
Definition okrest (r : bytes) : Prop := r = [] \/ exists r', r = 58 :: 58 :: r'.
Lemma tail_stops p gs r : p 58 = false -> okrest r -> stops p (tail_text gs ++ r).
Proof.
  intros Hp [->|(r' & ->)]; destruct gs; cbn; auto.
Qed.
Lemma read_ipv4_colon r : read_ipv4_addr (58 :: r) = None.
Proof. reflexivity. Qed.
Lemma read_number_colon r : read_number 16 4 65536 (58 :: r) = None.
Proof. reflexivity. Qed.

(** One more group. *)
Lemma read_group_step n first g rest : g < 65536 -> stops (fun c => ddigit 16 c || (c =? 46)) rest ->
  read_groups (S n) first ((if first then [] else [58]) ++ show_hex g ++ rest) =
  let '(gs, v, r) := read_groups n false rest in (g :: gs, v, r).
Proof.
  intros Hg Hr. destruct (hex_ok g Hg) as (H1 & _ & _). cbn [read_groups].
  assert (Hs : skip_colon first ((if first then [] else [58]) ++ show_hex g ++ rest) = Some (show_hex g ++ rest)).
  { destruct first; reflexivity. }
  rewrite Hs. rewrite hex_not_ipv4 by assumption.
  rewrite read_hex; [|exact Hg|].
  - destruct n; reflexivity.
  - destruct rest as [|c rest]; [exact I|]. cbn in *. now apply orb_false_iff in Hr.
Qed.
Lemma read_groups_stop n rest : okrest rest -> read_groups n false rest = ([], false, rest).
Proof. intros [->|(r & ->)]; destruct n as [|[|n]]; reflexivity. Qed.
Lemma read_groups_tail : forall gs n rest, (length gs <= n)%nat -> Forall (fun g => g < 65536) gs ->
  okrest rest -> read_groups n false (tail_text gs ++ rest) = (gs, false, rest).
Proof.
  induction gs as [|g gs IH]; intros n rest Hn Hw Hr; [now apply read_groups_stop|].
  cbn [length] in Hn. destruct n as [|n]; [lia|]. inversion Hw; subst.
  unfold tail_text. cbn [map concat]. fold (tail_text gs).
  change ((58 :: show_hex g) ++ tail_text gs) with ([58] ++ show_hex g ++ tail_text gs).
  rewrite <- !app_assoc. rewrite (read_group_step n false g); [|assumption|now apply tail_stops].
  rewrite IH; auto. lia.
Qed.
Lemma read_groups_show gs n rest : (length gs <= n)%nat -> Forall (fun g => g < 65536) gs ->
  okrest rest -> read_groups n true (show_groups gs ++ rest) = (gs, false, rest).
Proof.
  intros Hn Hw Hr. destruct gs as [|g gs].
  - cbn [show_groups app]. destruct Hr as [->|(r & ->)]; destruct n as [|[|n]]; reflexivity.
  - rewrite show_groups_cons, <- app_assoc. cbn [length] in Hn. destruct n as [|n]; [lia|].
    inversion Hw; subst. pose proof (read_group_step n true g (tail_text gs ++ rest)) as P.
    cbn [app] in P. rewrite P; [|assumption|now apply tail_stops].
    rewrite read_groups_tail; auto. lia.
Qed.

Lemma skipn_add {A} (n m : nat) (l : list A) : skipn (n + m) l = skipn m (skipn n l).
Proof.
  revert l. induction n as [|n IH]; intros l; [reflexivity|]. destruct l as [|x l]; [|apply IH].
  cbn. now rewrite skipn_nil.
Qed.

(** ** The longest run of zeros *)
Definition zrun (pre : list N) (at_ len : nat) : Prop :=
  (at_ + len <= length pre)%nat /\ firstn len (skipn at_ pre) = repeat 0 len.
Lemma zrun_app pre l at_ len : zrun pre at_ len -> zrun (pre ++ l) at_ len.
Proof.
  intros [H1 H2]. split; [rewrite app_length; lia|]. rewrite skipn_app, firstn_app.
  rewrite skipn_length. replace (len - (length pre - at_))%nat with 0%nat by lia.
  cbn [firstn]. now rewrite app_nil_r.
Qed.
Lemma find_zero_ok : forall gs pre lat llen cat clen,
  zrun pre lat llen ->
  (clen <> 0%nat -> (cat + clen = length pre)%nat) -> zrun pre cat clen ->
  let '(a, l) := find_zero_loop gs (length pre) lat llen cat clen in zrun (pre ++ gs) a l.
Proof.
  induction gs as [|g gs IH]; intros pre lat llen cat clen Hl Hc Hz; cbn [find_zero_loop].
  - now rewrite app_nil_r.
  - replace (pre ++ g :: gs) with ((pre ++ [g]) ++ gs) by (now rewrite <- app_assoc).
    assert (Hlen : S (length pre) = length (pre ++ [g])) by (rewrite app_length; cbn; lia).
    rewrite Hlen. destruct (N.eqb_spec g 0) as [->|Hg].
    + set (cat' := if Nat.eqb clen 0 then length pre else cat).
      assert (E1 : (cat' + S clen = length (pre ++ [0%N]))%nat).
      { unfold cat'. rewrite <- Hlen. destruct (Nat.eqb_spec clen 0); [lia|]. specialize (Hc n). lia. }
      assert (Hcat : zrun (pre ++ [0]) cat' (S clen)).
      { split; [lia|]. unfold cat'. destruct (Nat.eqb_spec clen 0) as [->|Hne].
        - rewrite skipn_app, skipn_all, Nat.sub_diag. reflexivity.
        - specialize (Hc Hne). destruct Hz as [_ Hz]. rewrite skipn_app.
          replace (cat - length pre)%nat with 0%nat by lia. cbn [skipn].
          assert (El : length (skipn cat pre) = clen) by (rewrite skipn_length; lia).
          rewrite firstn_app, El. replace (S clen - clen)%nat with 1%nat by lia.
          rewrite (firstn_all2 (n := S clen)) by lia.
          rewrite <- El in Hz at 1. rewrite firstn_all in Hz. rewrite Hz. cbn [firstn].
          change (repeat 0 (S clen)) with (0 :: repeat 0 clen). now rewrite repeat_cons. }
      destruct (Nat.ltb llen (S clen)); apply IH; auto; now apply zrun_app.
    + apply IH; [now apply zrun_app|congruence|]. split; [lia|reflexivity].
Qed.
Lemma find_zero_slice_ok a : let '(z, l) := find_zero_slice a in zrun a z l.
Proof.
  unfold find_zero_slice. apply (find_zero_ok a [] 0 0 0 0); try (split; [cbn; lia|reflexivity]).
  congruence.
Qed.

(** ** IPv6 *)
Lemma v4_tail_wf g h : g < 65536 -> h < 65536 -> wf_ipv4 (g / 256, g mod 256, h / 256, h mod 256).
Proof.
  intros Hg Hh. cbn. repeat split; try (apply N.mod_lt; lia); apply N.div_lt_upper_bound; lia.
Qed.
Lemma recombine g : (g / 256) * 256 + g mod 256 = g.
Proof. rewrite N.mul_comm. symmetry. apply N.div_mod. lia. Qed.

Lemma read_groups_v4 n first g h : g < 65536 -> h < 65536 ->
  read_groups (S (S n)) first ((if first then [] else [58]) ++ show_v4_tail g h) = ([g; h], true, []).
Proof.
  intros Hg Hh. cbn [read_groups].
  assert (Hs : skip_colon first ((if first then [] else [58]) ++ show_v4_tail g h) = Some (show_v4_tail g h)).
  { destruct first; reflexivity. }
  rewrite Hs. unfold show_v4_tail. rewrite <- (app_nil_r (show_ipv4 _)).
  rewrite read_show_ipv4; [|now apply v4_tail_wf|exact I]. now rewrite !recombine.
Qed.

Lemma read_after_colons s tl v : read_groups 7 true s = (tl, v, []) -> (length tl <= 8)%nat ->
  ipv6_from_str (58 :: 58 :: s) = Some (repeat 0 (8 - length tl) ++ tl).
Proof.
  intros H Hl. unfold ipv6_from_str, read_ipv6_addr.
  change (read_groups 8 true (58 :: 58 :: s)) with (@nil N, false, 58 :: 58 :: s).
  cbn [length Nat.eqb].
  change (read_given_char 58 (58 :: 58 :: s)) with (Some (58 :: s)). cbv iota.
  change (read_given_char 58 (58 :: s)) with (Some s). cbv iota.
  change (8 - (0 + 1))%nat with 7%nat. rewrite H. cbn [app]. now rewrite Nat.sub_0_r.
Qed.
Lemma zeros_firstn n a : forallb (N.eqb 0) (firstn n a) = true -> (n <= length a)%nat ->
  firstn n a = repeat 0 n.
Proof.
  revert a. induction n as [|n IH]; intros [|x a] H Hl; cbn [firstn forallb length repeat] in *; try lia; [reflexivity|reflexivity|].
  apply andb_true_iff in H. destruct H as [Hx H]. apply N.eqb_eq in Hx. subst x. cbn. f_equal. apply IH; auto. lia.
Qed.

Theorem ipv6_round_trip a : wf_ipv6 a -> ipv6_from_str (show_ipv6 a) = Some a.
Proof.
  intros [Hlen Hw]. unfold show_ipv6.
  assert (Hnth : forall k, (k < 8)%nat -> nth k a 0 < 65536).
  { intros k Hk. rewrite Forall_forall in Hw. apply Hw, nth_In. lia. }
  set (g := nth 6 a 0). set (h := nth 7 a 0).
  assert (Hg : g < 65536) by (apply Hnth; lia). assert (Hh : h < 65536) by (apply Hnth; lia).
  assert (Hsplit6 : forallb (N.eqb 0) (firstn 6 a) = true -> a = repeat 0 6 ++ [g; h]).
  { intros H. apply zeros_firstn in H; [|lia]. rewrite <- (firstn_skipn 6 a), H at 1. f_equal.
    unfold g, h. clear -Hlen. do 9 (destruct a as [|? a]; try discriminate). reflexivity. }
  destruct (forallb (N.eqb 0) (firstn 6 a)) eqn:Z6; cbn [andb].
  - specialize (Hsplit6 eq_refl).
    destruct ((g =? 0) && (h =? 0)) eqn:E0.
    { apply andb_true_iff in E0. destruct E0 as [E1 E2]. apply N.eqb_eq in E1, E2.
      rewrite Hsplit6, E1, E2. reflexivity. }
    destruct ((g =? 0) && (h =? 1)) eqn:E1.
    { apply andb_true_iff in E1. destruct E1 as [E1 E2]. apply N.eqb_eq in E1, E2.
      rewrite Hsplit6, E1, E2. reflexivity. }
    change (s2b "::" ++ show_v4_tail g h) with (58 :: 58 :: show_v4_tail g h).
    rewrite (read_after_colons _ [g; h] true).
    + f_equal. symmetry. exact Hsplit6.
    + apply (read_groups_v4 5 true g h Hg Hh).
    + cbn. lia.
  - destruct (forallb (N.eqb 0) (firstn 5 a) && (nth 5 a 0 =? 65535)) eqn:Z5.
    + apply andb_true_iff in Z5. destruct Z5 as [Z5 E5]. apply N.eqb_eq in E5.
      apply zeros_firstn in Z5; [|lia].
      assert (Ha : a = repeat 0 5 ++ [65535; g; h]).
      { rewrite <- (firstn_skipn 5 a), Z5 at 1. f_equal. unfold g, h. rewrite <- E5.
        clear -Hlen. do 9 (destruct a as [|? a]; try discriminate). reflexivity. }
      change (s2b "::ffff:" ++ show_v4_tail g h)
        with (58 :: 58 :: (show_hex 65535 ++ [58] ++ show_v4_tail g h)).
      rewrite (read_after_colons _ [65535; g; h] true).
      * f_equal. symmetry. exact Ha.
      * pose proof (read_group_step 6 true 65535 ([58] ++ show_v4_tail g h)) as P. cbv iota in P.
        rewrite app_nil_l in P. rewrite P; [|lia|reflexivity].
        rewrite (read_groups_v4 4 false g h Hg Hh). reflexivity.
      * cbn. lia.
    + pose proof (find_zero_slice_ok a) as Hz. destruct (find_zero_slice a) as [za zl].
      destruct Hz as [Hz1 Hz2]. destruct (Nat.ltb_spec 1 zl) as [Hzl|Hzl].
      * set (hd := firstn za a). set (tl := skipn (za + zl) a).
        assert (Lh : length hd = za) by (unfold hd; rewrite firstn_length; lia).
        assert (Lt : length tl = (8 - (za + zl))%nat) by (unfold tl; rewrite skipn_length; lia).
        assert (Ha : a = hd ++ repeat 0 zl ++ tl).
        { unfold hd, tl. rewrite <- Hz2. rewrite <- (firstn_skipn za a) at 1. f_equal.
          rewrite <- (firstn_skipn zl (skipn za a)) at 1. f_equal. symmetry. apply skipn_add. }
        assert (Wh : Forall (fun g => g < 65536) hd).
        { rewrite Ha in Hw. apply Forall_app in Hw. apply Hw. }
        assert (Wt : Forall (fun g => g < 65536) tl).
        { rewrite Ha in Hw. rewrite !Forall_app in Hw. apply Hw. }
        unfold ipv6_from_str, read_ipv6_addr.
        change (s2b "::" ++ show_groups tl) with (58 :: 58 :: show_groups tl).
        rewrite read_groups_show; [|lia|exact Wh|right; eauto].
        destruct (Nat.eqb_spec (length hd) 8) as [C|_]; [lia|].
        change (read_given_char 58 (58 :: 58 :: show_groups tl)) with (Some (58 :: show_groups tl)). cbv iota.
        change (read_given_char 58 (58 :: show_groups tl)) with (Some (show_groups tl)). cbv iota.
        rewrite <- (app_nil_r (show_groups tl)).
        rewrite read_groups_show; [|lia|exact Wt|now left].
        f_equal. replace (8 - length hd - length tl)%nat with zl by lia. symmetry. exact Ha.
      * unfold ipv6_from_str, read_ipv6_addr. rewrite <- (app_nil_r (show_groups a)).
        rewrite read_groups_show; [|lia|exact Hw|now left]. rewrite Hlen. reflexivity.
Qed.

(** What is read is a well-formed address. *)
Lemma read_groups_wf : forall n first s gs v r, read_groups n first s = (gs, v, r) ->
  (length gs <= n)%nat /\ Forall (fun g => g < 65536) gs.
Proof.
  induction n as [|n IH]; intros first s gs v r H; cbn [read_groups] in H.
  - injection H as <- <- <-. split; [cbn; lia|constructor].
  - assert (Hg : (match (match skip_colon first s with None => None
                     | Some s' => read_number 16 4 65536 s' end) with
                | None => ([], false, s)
                | Some (g, s') => let '(gs, v, r) := read_groups n false s' in (g :: gs, v, r)
                end) = (gs, v, r) -> (length gs <= S n)%nat /\ Forall (fun g => g < 65536) gs).
    { intros E. destruct (skip_colon first s) as [s'|].
      - destruct (read_number 16 4 65536 s') as [[g s2]|] eqn:E2.
        + destruct (read_groups n false s2) as [[gs' v'] r'] eqn:E3. injection E as <- <- <-.
          apply IH in E3. apply read_number_bound in E2; [|lia]. cbn. split; [lia|]. now constructor.
        + injection E as <- <- <-. split; [cbn; lia|constructor].
      - injection E as <- <- <-. split; [cbn; lia|constructor]. }
    destruct n as [|n']; [now apply Hg|].
    destruct (skip_colon first s) as [s'|] eqn:Es; [|now apply Hg].
    destruct (read_ipv4_addr s') as [[[[[a b] c] d] s4]|] eqn:E4; [|now apply Hg].
    injection H as <- <- <-. apply read_ipv4_wf in E4. destruct E4 as (Ha & Hb & Hc & Hd).
    split; [cbn; lia|]. repeat constructor; lia.
Qed.
Lemma ipv4_from_str_wf s a : ipv4_from_str s = Some a -> wf_ipv4 a.
Proof.
  unfold ipv4_from_str. destruct (read_ipv4_addr s) as [[x [|? ?]]|] eqn:E; try discriminate.
  intros H. injection H as <-. eapply read_ipv4_wf; eauto.
Qed.
Lemma ipv6_from_str_wf s a : ipv6_from_str s = Some a -> wf_ipv6 a.
Proof.
  unfold ipv6_from_str. destruct (read_ipv6_addr s) as [[x [|? ?]]|] eqn:E; try discriminate.
  intros H. injection H as <-. unfold read_ipv6_addr in E.
  destruct (read_groups 8 true s) as [[hd v] s1] eqn:E1. apply read_groups_wf in E1. destruct E1 as [L1 W1].
  destruct (Nat.eqb_spec (length hd) 8) as [E8|E8].
  { injection E as E5 E6. subst. now split. }
  destruct v; [discriminate|]. destruct (read_given_char 58 s1) as [s2|]; [|discriminate].
  destruct (read_given_char 58 s2) as [s3|]; [|discriminate].
  destruct (read_groups (8 - (length hd + 1)) true s3) as [[tl v] s4] eqn:E2.
  apply read_groups_wf in E2. destruct E2 as [L2 W2]. assert (Ex : x = hd ++ repeat 0 (8 - length hd - length tl) ++ tl) by congruence.
  subst x. clear E. split.
  - rewrite !app_length, repeat_length. lia.
  - rewrite !Forall_app. repeat split; auto. apply Forall_forall. intros z Hz. apply repeat_spec in Hz. subst z. lia.
Qed.

(** The texts are made of hexadecimal digits, dots and colons. *)
Definition addrc (c : N) : bool := ddigit 16 c || (c =? 58) || (c =? 46).
Definition addr_text (s : bytes) : Prop := Forall (fun c => addrc c = true) s.
Lemma addr_text_not s c : addr_text s -> addrc c = false -> ~ In c s.
Proof. intros H Hc C. unfold addr_text in H. rewrite Forall_forall in H. specialize (H c C). congruence. Qed.
Lemma addr_text_app a b : addr_text a -> addr_text b -> addr_text (a ++ b).
Proof. intros. now apply Forall_app. Qed.
Lemma addr_lit l : forallb addrc l = true -> addr_text l.
Proof. intros H. rewrite forallb_forall in H. now apply Forall_forall. Qed.
Lemma show_u8_chars n : n < 256 -> addr_text (show_u8 n).
Proof.
  intros H. destruct (u8_ok n H) as [H1 _]. eapply Forall_impl; [|exact H1]. cbn. intros c [Hc _].
  apply ddigit_10_16 in Hc. unfold addrc. now rewrite Hc.
Qed.
Lemma show_hex_chars n : n < 65536 -> addr_text (show_hex n).
Proof.
  intros H. destruct (hex_ok n H) as [H1 _]. eapply Forall_impl; [|exact H1]. cbn. intros c [Hc _].
  unfold addrc. now rewrite Hc.
Qed.
Lemma show_ipv4_chars a : wf_ipv4 a -> addr_text (show_ipv4 a).
Proof.
  destruct a as [[[a b] c] d]. intros (Ha & Hb & Hc & Hd). unfold show_ipv4.
  repeat apply addr_text_app; auto using show_u8_chars; now apply addr_lit.
Qed.
Lemma show_groups_chars gs : Forall (fun g => g < 65536) gs -> addr_text (show_groups gs).
Proof.
  intros H. destruct H as [|g gs Hg Hgs]; [constructor|]. rewrite show_groups_cons.
  apply addr_text_app; [now apply show_hex_chars|]. induction Hgs as [|g' gs Hg' Hgs IH]; [constructor|].
  unfold tail_text. cbn [map concat]. apply addr_text_app; [|exact IH].
  constructor; [reflexivity|now apply show_hex_chars].
Qed.
Lemma show_ipv6_chars a : wf_ipv6 a -> addr_text (show_ipv6 a).
Proof.
  intros [Hlen Hw]. unfold show_ipv6.
  assert (Hnth : forall k, (k < 8)%nat -> nth k a 0 < 65536).
  { intros k Hk. rewrite Forall_forall in Hw. apply Hw, nth_In. lia. }
  assert (Hv4 : addr_text (show_v4_tail (nth 6 a 0) (nth 7 a 0))).
  { apply show_ipv4_chars, v4_tail_wf; apply Hnth; lia. }
  assert (Hsub : forall l r, a = l ++ r -> Forall (fun g => g < 65536) l /\ Forall (fun g => g < 65536) r).
  { intros l r ->. now apply Forall_app in Hw. }
  destruct (forallb (N.eqb 0) (firstn 6 a) && (nth 6 a 0 =? 0) && (nth 7 a 0 =? 0)); [now apply addr_lit|].
  destruct (forallb (N.eqb 0) (firstn 6 a) && (nth 6 a 0 =? 0) && (nth 7 a 0 =? 1)); [now apply addr_lit|].
  destruct (forallb (N.eqb 0) (firstn 6 a)).
  { apply addr_text_app; [now apply addr_lit|exact Hv4]. }
  destruct (forallb (N.eqb 0) (firstn 5 a) && (nth 5 a 0 =? 65535)).
  { apply addr_text_app; [now apply addr_lit|exact Hv4]. }
  destruct (find_zero_slice a) as [za zl]. destruct (Nat.ltb 1 zl).
  - repeat apply addr_text_app.
    + apply show_groups_chars. apply (Hsub _ (skipn za a)). symmetry. apply firstn_skipn.
    + now apply addr_lit.
    + apply show_groups_chars. apply (Hsub (firstn (za + zl) a)). symmetry. apply firstn_skipn.
  - now apply show_groups_chars.
Qed.
