(** C74: the parsers look at the bytes of a line a bounded number of times: no line, however
    it is made, makes them go back again and again. *)
From Coq Require Import Lia.
From Verif Require Import Bytes Nom Ip Message Reply NomWork NomWorkProofs.

(** The counting parsers give what the parsers give. *)
Theorem C74_counting :
  (forall b, fst (command_parse_counted b) = command_parse b) /\
  (forall b, fst (reply_parse_counted b) = reply_parse b) /\
  (forall b, fst (domain_parse_counted b) = domain_parse b) /\
  (forall b, fst (email_parse_counted b) = email_parse b).
Proof.
  unfold command_parse_counted, command_parse, reply_parse_counted, reply_parse, domain_parse_counted,
    domain_parse, email_parse_counted, email_parse, count_result. cbn [fst].
  repeat split; intros b; f_equal;
    first [apply ccommand_agrees | apply creply_agrees | apply chostname_agrees | apply cemail_agrees].
Qed.

Lemma linear_count {A} a b (c : cparser A) i : linear a b c -> snd (count_result (c i)) <= a * length i + b.
Proof. intros H. specialize (H i). unfold count_result. cbn [snd]. destruct (c i) as [[] n]; cbn [snd]; lia. Qed.

(** Whatever the bytes, well-formed or not, the number of looks is at most proportional to
    their number. *)
Theorem C74_linear :
  (forall b, snd (command_parse_counted b) <= 100 * (length b + 3)) /\
  (forall b, snd (reply_parse_counted b) <= 2 * (length b + 4)) /\
  (forall b, snd (domain_parse_counted b) <= 4 * (length b + 4)) /\
  (forall b, snd (email_parse_counted b) <= 10 * (length b + 3)).
Proof.
  repeat split; intros b.
  - pose proof (linear_count _ _ _ b command_linear). unfold command_parse_counted. lia.
  - pose proof (linear_count _ _ _ b reply_linear). unfold reply_parse_counted. lia.
  - pose proof (linear_count _ _ _ b (paid_linear _ _ _ hostname_paid)). unfold domain_parse_counted. lia.
  - pose proof (linear_count _ _ _ b email_linear). unfold email_parse_counted. lia.
Qed.

(** So for all the lines of a connection together (a line has at least its CRLF). *)
Theorem C74_connection_linear : forall lines,
  Forall (fun l => 2 <= length l) lines ->
  list_sum (map (fun l => snd (command_parse_counted l)) lines) <= 250 * length (concat lines) /\
  list_sum (map (fun l => snd (reply_parse_counted l)) lines) <= 6 * length (concat lines).
Proof.
  induction 1 as [| l lines Hl _ (IH1 & IH2)]; cbn [map concat length]; [cbn; lia |].
  change (list_sum (?x :: ?y)) with (x + list_sum y) in *. rewrite app_length.
  destruct C74_linear as (C & R & _). specialize (C l). specialize (R l).
  unfold list_sum in *. cbn [fold_right]. lia.
Qed.

Lemma looks_count {A} (c : cparser A) b x : looks c -> fst (count_result (c b)) = POk x ->
  length b <= snd (count_result (c b)).
Proof.
  intros H E. specialize (H b). unfold count_result in *. cbn [fst snd] in *.
  destruct (c b) as [[r y | | |] n]; cbn [fst nom_to_result] in E; try discriminate.
  destruct (Nat.eqb_spec (length r) 0); [| discriminate]. cbn [snd]. lia.
Qed.

(** The count leaves nothing out: an input that is accepted has been looked at, every byte
    of it. *)
Theorem C74_every_byte_counted :
  (forall b c, command_parse b = POk c -> length b <= snd (command_parse_counted b)) /\
  (forall b r, reply_parse b = POk r -> length b <= snd (reply_parse_counted b)) /\
  (forall b d, domain_parse b = POk d -> length b <= snd (domain_parse_counted b)) /\
  (forall b e, email_parse b = POk e -> length b <= snd (email_parse_counted b)).
Proof.
  destruct C74_counting as (C & R & D & E).
  repeat split; intros b x H.
  - rewrite <- C in H. eapply looks_count; [apply looks_command | eauto].
  - rewrite <- R in H. eapply looks_count; [apply looks_reply | eauto].
  - rewrite <- D in H. eapply looks_count; [apply looks_hostname | eauto].
  - rewrite <- E in H. eapply looks_count; [apply looks_email | eauto].
Qed.

(** Lines made to be parsed more than once: a source route of address literals that turns
    out not to be one, an open quote, a bracket that is never closed, verbs tried one after
    the other.  The counts, and the lengths. *)
Example C74_hostile :
  map (fun l => (length l, snd (command_parse_counted l)))
    [ s2b "RCPT TO:<@[IPv6:::1],@[1.2.3.4],@[IPv6:::3],@[IPv6:::4],@[IPv6:5" ++ CRLF;
      s2b "MAIL FROM:<""aaaaaaaaaaaaaaaaaaaaaaaaaaaaaaaaaaaaaaaaaaaaaaaaaaaaaaaa" ++ CRLF;
      s2b "                                                          HELP" ++ CRLF ]
  = [(66, 119); (70, 149); (64, 132)].
Proof. vm_compute. reflexivity. Qed.
Example C74_accepted :
  command_parse (s2b "MAIL FROM:<@a,@b:c@[IPv6:::1]> SIZE=10" ++ CRLF)
  = POk (Mail (Some (Email (s2b "c") (Some (Addr6 (repeat 0%N 7 ++ [1%N]))))) [(s2b "SIZE", Some (s2b "10"))]) /\
  snd (command_parse_counted (s2b "MAIL FROM:<@a,@b:c@[IPv6:::1]> SIZE=10" ++ CRLF)) = 67.
Proof. vm_compute. split; reflexivity. Qed.
