(** Properties C25-C29: reply lines and replies. *)
From Verif Require Import Bytes Nom SmtpString Reply Stream SpecData StreamProofs NomLemmas SpecReply ReplyProofs
  Interact SpecSession InteractProofs.
Local Open Scope N_scope.

(** ** C25 *)
Theorem C25_build_exact : forall code last text,
  ((exists r, reply_build code last text = inl r) <-> (length text <= 506)%nat /\ Forall printable text)
  /\ (forall r, reply_build code last text = inl r -> r = ReplyLine code last text)
  /\ (forall n lim, reply_build code last text = inr (LineTooLong n lim) <->
        n = length text /\ lim = 506%nat /\ (506 < length text)%nat)
  /\ (forall b pos, reply_build code last text = inr (DisallowedByte b pos) <->
        (length text <= 506)%nat
        /\ exists before after, text = before ++ b :: after /\ length before = pos
           /\ Forall printable before /\ ~ printable b).
Proof.
  intros code last text.
  assert (Hnot : ~ (length text <= 506)%nat <-> (506 < length text)%nat) by lia.
  repeat split.
  - destruct H as [r H]. now apply build_inl in H.
  - destruct H as [r H]. now apply build_inl in H.
  - intros [H1 H2]. eexists. now apply build_ok.
  - intros r H. now apply build_inl in H.
  - unfold reply_build in H. destruct (Nat.ltb MAX_LEN (length text)) eqn:E; [congruence|].
    destruct (position _ text); discriminate.
  - unfold reply_build in H. destruct (Nat.ltb MAX_LEN (length text)) eqn:E; [now injection H|].
    destruct (position _ text); discriminate.
  - unfold reply_build in H. destruct (Nat.ltb MAX_LEN (length text)) eqn:E; [now apply Nat.ltb_lt in E|].
    destruct (position _ text); discriminate.
  - intros (-> & -> & H). unfold reply_build. apply Nat.ltb_lt in H. unfold MAX_LEN. now rewrite H.
  - unfold reply_build in H. destruct (Nat.ltb MAX_LEN (length text)) eqn:E; [discriminate|].
    now apply Nat.ltb_ge in E.
  - unfold reply_build in H. destruct (Nat.ltb MAX_LEN (length text)) eqn:E; [discriminate|].
    destruct (position _ text) as [p|] eqn:P; [|discriminate]. injection H as <- <-.
    apply position_some in P. destruct P as (a & c & b & -> & <- & Hc & Ha). exists a, b.
    rewrite nth_middle. split; [reflexivity|]. split; [reflexivity|].
    split; [now apply printable_forall|now apply not_printable].
  - intros (Hl & before & after & -> & <- & Hb & Hc). unfold reply_build.
    apply Nat.ltb_ge in Hl. unfold MAX_LEN. rewrite Hl.
    rewrite (proj2 (position_some _ _ (length before))).
    + now rewrite nth_middle.
    + exists before, b, after. repeat split; [now apply not_printable|now apply printable_forall].
Qed.
Print Assumptions C25_build_exact.
Example C25_example : reply_build 250 true (s2b "ok" ++ [7] ++ s2b "x") = inr (DisallowedByte 7 2).
Proof. reflexivity. Qed.

(** ** C26 *)
Theorem C26_reply_round_trip : forall code last text r,
  code < 1000 -> reply_build code last text = inl r ->
  length (reply_send r) = reply_byte_len r
  /\ (length (reply_send r) <= 512)%nat
  /\ (exists body, reply_send r = body ++ CRLF /\ ~ In CR body /\ ~ In LF body)
  /\ reply_parse (reply_send r) = POk r.
Proof.
  intros code last text r Hc Hb. apply build_inl in Hb. destruct Hb as (Hl & Hp & ->).
  destruct (reply_send_wire code last text Hc) as (ds & Hds & E).
  split; [apply reply_send_len|]. split; [rewrite reply_send_len; unfold reply_byte_len; cbn; lia|]. split.
  - exists (ds ++ [if last then 32 else 45] ++ text). rewrite E, <- !app_assoc. split; [reflexivity|].
    assert (Hnp : forall x, x = CR \/ x = LF -> ~ In x (ds ++ [if last then 32 else 45] ++ text)).
    { intros x Hx Hin. rewrite !in_app_iff in Hin. destruct Hin as [Hin|[Hin|Hin]].
      - destruct Hds as (a & b & c & _ & _ & _ & _ & ->). unfold CR, LF in Hx. cbn [In] in Hin. lia.
      - unfold CR, LF in Hx. destruct last; destruct Hin as [Hin|[]]; lia.
      - rewrite Forall_forall in Hp. apply Hp in Hin. unfold printable, CR, LF in *. lia. }
    split; apply Hnp; auto.
  - apply reply_parse_ok. exists ds. rewrite E. split; [now left|]. split; [now apply printable_is_line|].
    now destruct last.
Qed.
Print Assumptions C26_reply_round_trip.
Example C26_example : exists r, reply_build 550 false (s2b "no such user") = inl r
  /\ reply_send r = s2b "550-no such user" ++ CRLF.
Proof. eexists. split; reflexivity. Qed.

(** ** C27 *)
Theorem C27_reply_parse_exact : forall b code last text,
  reply_parse b = POk (ReplyLine code last text) <->
  exists num, b = num ++ [if last then 32 else 45] ++ text ++ CRLF
  /\ ~ contains CRLF text
  /\ (three_digits code num
      \/ exists x y, x < 10 /\ y < 10 /\ code = 10 * x + y /\ num = [43; 48 + x; 48 + y]).
Proof.
  intros b code last text. rewrite reply_parse_ok. unfold reads_as, is_line.
  split; intros (num & H); exists num; change SP with 32 in *; tauto.
Qed.
Print Assumptions C27_reply_parse_exact.
Example C27_example :
  reply_parse (s2b "250-ok " ++ [CR] ++ CRLF) = POk (ReplyLine 250 false (s2b "ok " ++ [CR]))
  /\ reply_parse (s2b "+25 x" ++ CRLF) = POk (ReplyLine 25 true (s2b "x")).
Proof. split; vm_compute; reflexivity. Qed.
(** So parsing does not check the text: it accepts lines [build] refuses. *)
Theorem C27_parse_laxer_than_build : exists b r,
  reply_parse b = POk r /\ forall r', reply_build (rl_code r) (rl_last r) (rl_line r) <> inl r'.
Proof.
  exists (s2b "250 " ++ [200; 0] ++ CRLF). eexists. split; [vm_compute; reflexivity|]. cbn. discriminate.
Qed.
Print Assumptions C27_parse_laxer_than_build.

(** ** C28 *)
Theorem C28_chunks_partition : forall s n,
  0 < n -> N.of_nat (length s) + n - 1 < 18446744073709551616 ->
  exists ps, byte_chunks s n = Some ps /\ chunked (N.to_nat n) s ps.
Proof. intros s n Hn Hov. apply byte_chunks_ok; [exact Hn|]. unfold usize_max_plus_1. lia. Qed.
Print Assumptions C28_chunks_partition.
(** [chunked] says what it should. *)
Theorem C28_chunked_meaning : forall n s ps, (0 < n)%nat ->
  (chunked n s ps <->
   concat ps = s /\ Forall (fun p => 1 <= length p <= n)%nat ps
   /\ (forall qs p, ps = qs ++ [p] -> Forall (fun q => length q = n) qs)).
Proof.
  intros n s ps Hn. split.
  - intros H. split; [now apply chunked_concat in H|]. split; [now apply chunked_sizes in H|].
    induction H as [|p Hp|p s ps Hp Hs H IH]; intros qs q E.
    + now destruct qs.
    + destruct qs as [|? [|? ?]]; [constructor|discriminate..].
    + destruct qs as [|q0 qs]; [constructor|]. injection E as <- ->. constructor; [exact Hp|]. eauto.
  - intros (<- & Hs & Ha). induction ps as [|p ps IH]; [constructor|]. inversion Hs as [|? ? Hp Hps]; subst.
    destruct ps as [|p' ps].
    + cbn. rewrite app_nil_r. now constructor.
    + change (concat (p :: p' :: ps)) with (p ++ concat (p' :: ps)). constructor.
      * destruct (exists_last (l := p' :: ps)) as (qs & q & E); [discriminate|].
        specialize (Ha (p :: qs) q). rewrite E in Ha. specialize (Ha eq_refl). now inversion Ha.
      * intros C. inversion Hps as [|? ? Hp' _]; subst. destruct p'; [cbn in Hp'; lia|discriminate].
      * apply IH; [exact Hps|]. intros qs q E. specialize (Ha (p :: qs) q). rewrite E in Ha.
        specialize (Ha eq_refl). now inversion Ha.
Qed.
Print Assumptions C28_chunked_meaning.
(** Overflow (release build): everything is lost. *)
Theorem C28_overflow_loses_everything : forall s n,
  n < 18446744073709551616 -> N.of_nat (length s) < 18446744073709551616 ->
  18446744073709551616 <= N.of_nat (length s) + n - 1 ->
  byte_chunks s n = Some [].
Proof. intros s n H1 H2 H3. apply byte_chunks_overflow; unfold usize_max_plus_1; lia. Qed.
Print Assumptions C28_overflow_loses_everything.
Theorem C28_zero_panics : forall s, byte_chunks s 0 = None.
Proof. reflexivity. Qed.
Print Assumptions C28_zero_panics.
Example C28_example : byte_chunks (s2b "hello") 2 = Some [s2b "he"; s2b "ll"; s2b "o"].
Proof. vm_compute. reflexivity. Qed.

(** ** C29 *)
(** On success the whole reply was written, line by line; whatever happens, what
    was written is a beginning of it; it panics exactly if the text has a
    disallowed byte (unless the writer fails first), and then before any line
    carrying such a byte is written; nothing else changes. *)
Theorem C29_send_reply : forall {C U W} (wr : writer W) code text (s : @st C U W) o s',
  code < 1000 -> N.of_nat (length text) + 506 <= 18446744073709551616 -> st_with s = None ->
  send_reply wr (code, text) s = (o, s') ->
  exists lines ws rest,
    full_reply code text lines /\ lines = ws ++ rest
    /\ st_trace s' = st_trace s ++ map OWrite ws
    /\ (o = Ret tt -> rest = [] /\ st_with s' = None)
    /\ (Forall printable text -> o = Ret tt \/ o = WriteErr)
    /\ (~ Forall printable text -> o = Panic \/ o = WriteErr)
    /\ Forall (fun w => exists last t, Forall printable t /\ (length t <= 506)%nat /\ reply_on_wire code last t w) ws
    /\ same_session s s'
    /\ (reliable wr -> o <> WriteErr).
Proof.
  intros C U W wr code text s o s' Hc Hs Hw E.
  pose proof (send_reply_ok wr (code, text) s Hw Hs) as P. rewrite E in P.
  destruct P as (P1 & (ws & rest & P2 & P3 & P4) & P5 & P6 & P7).
  exists (reply_items (code, text)), ws, rest.
  split; [apply (reply_items_full (code, text)); auto|]. split; [exact P2|]. split; [exact P3|].
  split. { intros ->. split; [now apply (P4 tt)|]. now apply (P5 tt). }
  split. { intros Hp. destruct o as [[]| | |]; auto; [|congruence]. now destruct (P6 Hp). }
  split. { intros Hp. destruct o as [[]| | |]; auto; [|congruence]. now destruct (P5 tt eq_refl). }
  split.
  { unfold send_reply in E. destruct (byte_chunks _ _) as [ps|].
    - eapply Forall_impl; [|eapply send_chunks_clean; [|exact E|exact P3]].
      + intros w (last & t & H1 & H2 & ->). exists last, t. split; [exact H1|]. split; [exact H2|].
        now apply reply_send_wire.
      + unfold pend. rewrite Hw. constructor.
    - injection E as <- <-. destruct ws; [constructor|]. apply (f_equal (@length _)) in P3.
      rewrite app_length in P3. cbn in P3. lia. }
  split; [exact P1|]. intros R. pose proof (send_reply_reliable wr (code, text) s R) as N. now rewrite E in N.
Qed.
Print Assumptions C29_send_reply.
(** How many lines, and that they fit. *)
Theorem C29_reply_shape : forall code text lines, full_reply code text lines ->
  (506 * length lines < length text + 506)%nat /\ (length text <= 506 * length lines)%nat
  /\ Forall (fun w => length w <= 512)%nat lines
  /\ (text = [] <-> lines = []).
Proof.
  intros code text lines (ts & Hch & Hl).
  assert (Hlen : length lines = length ts) by (clear Hch; induction Hl; cbn [length] in *; congruence).
  assert (Hn : (506 * length ts < length text + 506)%nat /\ (length text <= 506 * length ts)%nat).
  { clear -Hch. induction Hch as [|p Hp|p s ps Hp Hs H IH]; cbn [length]; [lia|lia|].
    rewrite app_length. destruct s; [congruence|]. cbn [length] in *. lia. }
  rewrite Hlen. repeat split; try apply Hn.
  - pose proof (chunked_sizes 506 text ts ltac:(lia) Hch) as Hz. clear -Hl Hz.
    assert (Hw : forall last t w, reply_on_wire code last t w -> length w = (6 + length t)%nat).
    { intros last t w (ds & (a & b & c & _ & _ & _ & _ & ->) & ->). cbn. rewrite app_length. cbn. lia. }
    induction Hl as [|t w H|t t' ts w ws H Hl IH]; [constructor|..]; inversion Hz; subst; constructor; auto;
      apply Hw in H; lia.
  - intros ->. destruct lines; [reflexivity|]. cbn [length] in *. lia.
  - intros ->. destruct text; [reflexivity|]. cbn [length] in *. lia.
Qed.
Print Assumptions C29_reply_shape.
Theorem C29_reply_unique : forall code text l1 l2, full_reply code text l1 -> full_reply code text l2 -> l1 = l2.
Proof.
  intros code text l1 l2 (t1 & H1 & L1) (t2 & H2 & L2).
  rewrite (chunked_unique 506 text t2 t1) in L2 by (auto; lia). clear -L1 L2. revert l2 L2.
  induction L1 as [|t w H|t t' ts w ws H L1 IH]; intros l2 L2; inversion L2; subst; [reflexivity|..].
  - f_equal. eapply reply_on_wire_unique; eauto.
  - f_equal; [eapply reply_on_wire_unique; eauto|auto].
Qed.
Print Assumptions C29_reply_unique.
Definition all_ok : writer unit := Writer unit (fun w => (true, w)) (fun w _ => (true, w)) (fun w => (true, w)).
Definition start {C U} (c : C) (u : U) : @st C U unit := St c u None (prep_new (src_of [])) tt None [].
Example C29_example :
  map (fun o => match o with OWrite b => length b | _ => 0%nat end)
      (st_trace (snd (send_reply all_ok (250, repeat 65 600) (start tt tt)))) = [512; 100]%nat.
Proof. vm_compute. reflexivity. Qed.
(** An empty text sends no reply at all: the client would wait for ever. *)
Theorem C29_empty_text_sends_nothing : forall {C U W} (wr : writer W) code (s : @st C U W) o s',
  st_with s = None -> send_reply wr (code, []) s = (o, s') -> st_trace s' = st_trace s.
Proof.
  intros C U W wr code s o s' Hw E.
  pose proof (send_reply_ok wr (code, []) s Hw ltac:(unfold small, usize_max_plus_1; cbn; lia)) as P. rewrite E in P.
  destruct P as (_ & (ws & rest & P2 & P3 & _) & _). cbn in P2. destruct ws; [|discriminate].
  rewrite P3. apply app_nil_r.
Qed.
Print Assumptions C29_empty_text_sends_nothing.
