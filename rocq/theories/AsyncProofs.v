(** The future of Async.v, polled however often it must be, does what [interact]
    of Interact.v does. *)
From Verif Require Import Bytes Nom SmtpString Ip Message Reply Stream Interact Async AsyncWaits.

Section AsyncProofs.
Context {C U W : Type}.
Variable cfg : config C U.
Variable wr : writer W.
Notation state := (@st C U W).
Notation world := (@world C U W).
Notation async := (@async C U W).

Inductive awaits {L B} (op : L -> world -> poll (outcome B) * L * world) : L -> world -> outcome B -> world -> Prop :=
| aw_ready l x o l' x' : op l x = (Ready o, l', x') -> awaits op l x o x'
| aw_pend l x l1 x1 o x' : op l x = (Pending, l1, x1) -> awaits op l1 x1 o x' -> awaits op l x o x'.
Definition failed {A B} (o : outcome A) : option (outcome B) :=
  match o with Ret _ => None | WriteErr => Some WriteErr | Panic => Some Panic | NoFuel => Some NoFuel end.
Inductive runs {A} : async A -> world -> outcome A -> world -> Prop :=
| rn_done o x : runs (ADone o) x o x
| rn_ret L B (op : L -> world -> poll (outcome B) * L * world) l k x b x1 o x2 :
    awaits op l x (Ret b) x1 -> runs (k b) x1 o x2 -> runs (AAwait op l k) x o x2
| rn_fail L B (op : L -> world -> poll (outcome B) * L * world) l k x e x1 o :
    awaits op l x e x1 -> failed e = Some o -> runs (AAwait op l k) x o x1.

Lemma runs_polls {A} (p : async A) x o x' : runs p x o x' -> exists n, after_polls n p x = (inl o, x').
Proof.
  induction 1 as [o x|L B op l k x b x1 o x2 Ha Hr IH|L B op l k x e x1 o Ha Hf].
  - now exists 1.
  - destruct IH as [n Hn]. clear Hr. remember (Ret b) as r eqn:Er.
    induction Ha as [l x r l' x1 E|l x l1 x1 r x' E Ha IH]; subst r.
    + exists n. destruct n as [|n]; [discriminate|]. cbn in Hn |- *. now rewrite E.
    + destruct (IH eq_refl Hn) as [m Hm]. exists (S m). cbn. now rewrite E.
  - induction Ha as [l x r l' x1 E|l x l1 x1 r x' E Ha IH].
    + exists 1. cbn. rewrite E. destruct r; cbn in Hf; congruence.
    + destruct (IH Hf) as [m Hm]. exists (S m). cbn. now rewrite E.
Qed.
Lemma runs_bind {A B} (p : async A) (f : A -> async B) x a x1 o x2 :
  runs p x (Ret a) x1 -> runs (f a) x1 o x2 -> runs (abind p f) x o x2.
Proof.
  intros H. remember (Ret a) as r eqn:Er. revert Er.
  induction H as [o' x|L T op l k x b x1 o' x2' Ha Hr IH|L T op l k x e x1 o' Ha Hf]; intros -> Hk; cbn.
  - exact Hk.
  - eapply rn_ret; [exact Ha|]. now apply IH.
  - destruct e; discriminate.
Qed.
Lemma runs_bind_fail {A B} (p : async A) (f : A -> async B) x e x1 o :
  runs p x e x1 -> failed e = Some o -> runs (abind p f) x o x1.
Proof.
  induction 1 as [o' x|L T op l k x b x1 o' x2' Ha Hr IH|L T op l k x e x1 o' Ha Hf]; intros H; cbn.
  - destruct o'; cbn in H; try discriminate; injection H as <-; constructor.
  - eapply rn_ret; [exact Ha|]. now apply IH.
  - eapply rn_fail; [exact Ha|]. destruct e; cbn in Hf |- *; try discriminate; injection Hf as <-; exact H.
Qed.

(** [p] from state [s] ends as [r], whatever is pending when. *)
Definition sim {A} (p : async A) (s : state) (r : outcome A * state) : Prop :=
  fst r <> NoFuel -> forall sched, exists sched', runs p (World s sched) (fst r) (World (snd r) sched').

Lemma sim_bind {A B} (p : async A) (q : A -> async B) s r g :
  sim p s r -> (forall a s', r = (Ret a, s') -> sim (q a) s' (g a s')) -> sim (abind p q) s (andthen r g).
Proof.
  intros Hp Hq Hn sched. destruct r as [[a| | |] s1]; cbn [andthen fst snd] in *.
  - destruct (Hp ltac:(discriminate) sched) as [sc1 H1]. destruct (Hq _ _ eq_refl Hn sc1) as [sc2 H2].
    exists sc2. eapply runs_bind; eassumption.
  - destruct (Hp ltac:(discriminate) sched) as [sc1 H1]. exists sc1. now eapply runs_bind_fail; [exact H1|].
  - destruct (Hp ltac:(discriminate) sched) as [sc1 H1]. exists sc1. now eapply runs_bind_fail; [exact H1|].
  - now elim Hn.
Qed.
Lemma sim_sync {B} (f : state -> outcome B * state) s : sim (sync f) s (f s).
Proof.
  intros Hn sched. exists sched. unfold sync. destruct (f s) as [o s'] eqn:E. cbn [fst snd] in *. destruct o as [b| | |].
  - eapply rn_ret; [eapply aw_ready; cbn; rewrite E; reflexivity|constructor].
  - eapply rn_fail; [eapply aw_ready; cbn; rewrite E; reflexivity|reflexivity].
  - eapply rn_fail; [eapply aw_ready; cbn; rewrite E; reflexivity|reflexivity].
  - now elim Hn.
Qed.
Lemma sim_eq {A} (p : async A) s r r' : r = r' -> sim p s r -> sim p s r'.
Proof. now intros ->. Qed.
Lemma sim_done {A} (o : outcome A) s : sim (ADone o) s (o, s).
Proof. intros _ sched. exists sched. constructor. Qed.
Lemma sim_sync_then {A B} (f : state -> outcome B * state) (q : B -> async A) s b s1 r :
  f s = (Ret b, s1) -> sim (q b) s1 r -> sim (abind (sync f) q) s r.
Proof.
  intros E Hq Hn sched. destruct (Hq Hn sched) as [sc H]. exists sc.
  eapply runs_bind; [|exact H]. eapply rn_ret; [eapply aw_ready; cbn; rewrite E; reflexivity|constructor].
Qed.
Lemma sim_read {A B} (f : state -> B) (q : B -> async A) s r : sim (q (f s)) s r -> sim (abind (read f) q) s r.
Proof. now apply sim_sync_then. Qed.
Lemma ask_until {L B} (op : L -> world -> poll (outcome B) * L * world) (l : L) (s : state) (o : outcome B) (s' : state) :
  (forall sched, match ask (World s sched) with
                 | (true, x) => op l (World s sched) = (Pending, l, x)
                 | (false, x) => exists l', op l (World s sched) = (Ready o, l', World s' (w_sched x)) end) ->
  forall sched, exists sched', awaits op l (World s sched) o (World s' sched').
Proof.
  intros H. induction sched as [|b sched IH].
  - specialize (H []). cbn in H. destruct H as [l' H]. eexists. eapply aw_ready, H.
  - specialize (H (b :: sched)). cbn in H. destruct b.
    + destruct IH as [sc IH]. exists sc. eapply aw_pend; eassumption.
    + destruct H as [l' H]. eexists. eapply aw_ready, H.
Qed.
Lemma sim_user {B A} (f : state -> B * state) (q : B -> async A) s b s1 r :
  f s = (b, s1) -> sim (q b) s1 r -> sim (abind (a_user f) q) s r.
Proof.
  intros E Hq Hn sched. destruct (ask_until (op_user f) tt s (Ret b) s1) with (sched := sched) as [sc1 H1].
  { intros [|[|] l]; cbn; [|reflexivity|]; unfold op_user; cbn; rewrite E; eexists; reflexivity. }
  destruct (Hq Hn sc1) as [sc H]. exists sc. eapply runs_bind; [|exact H]. eapply rn_ret; [exact H1|constructor].
Qed.

(** ** The writer *)
Lemma with_poll_twice (s s1 : state) : with_poll wr s = (Ret tt, s1) -> with_poll wr s1 = (Ret tt, s1).
Proof.
  unfold with_poll. destruct (st_with s) as [b|] eqn:Es.
  - cbn. destruct (w_send wr (st_w s) b) as [[|] w'] eqn:Ew'; [|discriminate]. intros E. injection E as <-. reflexivity.
  - intros E. injection E as <-. rewrite Es. reflexivity.
Qed.
Lemma sim_ready {A} (q : unit -> async A) s g :
  (forall s', with_poll_ready wr s = (Ret tt, s') -> sim (q tt) s' (g tt s')) ->
  sim (AAwait (op_ready (scheduled wr)) tt q) s (andthen (with_poll_ready wr s) g).
Proof.
  intros Hq Hn sched. unfold with_poll_ready in *. destruct (with_poll wr s) as [[[]| | |] s1] eqn:E; cbn [andthen fst snd] in *.
  - destruct (w_ready wr (st_w s1)) as [[|] w] eqn:Ew; cbn [andthen fst snd] in *.
    + assert (H : exists sc, awaits (op_ready (scheduled wr)) tt (World s sched) (Ret tt) (World (set_w s1 w) sc)).
      { clear Hn. revert s E. induction sched as [|b sched IH]; intros s E.
        - eexists. eapply aw_ready. rewrite op_ready_scheduled. cbn. rewrite E. cbn. rewrite Ew. reflexivity.
        - destruct b.
          + pose proof (with_poll_twice _ _ E) as E1.
            destruct (IH s1 E1) as [sc IH1]. exists sc. eapply aw_pend; [|exact IH1]. rewrite op_ready_scheduled. cbn. rewrite E. reflexivity.
          + eexists. eapply aw_ready. rewrite op_ready_scheduled. cbn. rewrite E. cbn. rewrite Ew. reflexivity. }
      destruct H as [sc H]. destruct (Hq _ eq_refl Hn sc) as [sc2 H2]. exists sc2. eapply rn_ret; eassumption.
    + assert (H : exists sc, awaits (op_ready (scheduled wr)) tt (World s sched) WriteErr (World (set_w s1 w) sc)).
      { clear Hn. revert s E. induction sched as [|b sched IH]; intros s E.
        - eexists. eapply aw_ready. rewrite op_ready_scheduled. cbn. rewrite E. cbn. rewrite Ew. reflexivity.
        - destruct b.
          + pose proof (with_poll_twice _ _ E) as E1.
            destruct (IH s1 E1) as [sc IH1]. exists sc. eapply aw_pend; [|exact IH1]. rewrite op_ready_scheduled. cbn. rewrite E. reflexivity.
          + eexists. eapply aw_ready. rewrite op_ready_scheduled. cbn. rewrite E. cbn. rewrite Ew. reflexivity. }
      destruct H as [sc H]. exists sc. eapply rn_fail; [exact H|reflexivity].
  - exists sched. eapply rn_fail; [eapply aw_ready; rewrite op_ready_scheduled; cbn; rewrite E; reflexivity|reflexivity].
  - exists sched. eapply rn_fail; [eapply aw_ready; rewrite op_ready_scheduled; cbn; rewrite E; reflexivity|reflexivity].
  - now elim Hn.
Qed.
Lemma sim_flush s : sim (AAwait (op_flush (scheduled wr)) tt (fun _ => ADone (Ret tt))) s (with_poll_flush wr s).
Proof.
  intros Hn sched. unfold with_poll_flush in *. destruct (with_poll wr s) as [[[]| | |] s1] eqn:E; cbn [andthen fst snd] in *.
  - assert (H : exists sc, awaits (op_flush (scheduled wr)) tt (World s sched) (if fst (w_flush wr (st_w s1)) then Ret tt else WriteErr) (World (set_w s1 (snd (w_flush wr (st_w s1)))) sc)).
    { clear Hn. revert s E. induction sched as [|b sched IH]; intros s E.
      - eexists. eapply aw_ready. rewrite op_flush_scheduled. cbn. rewrite E. cbn. destruct (w_flush wr (st_w s1)) as [[|] w]; reflexivity.
      - destruct b.
        + pose proof (with_poll_twice _ _ E) as E1.
          destruct (IH s1 E1) as [sc IH1]. exists sc. eapply aw_pend; [|exact IH1]. rewrite op_flush_scheduled. cbn. rewrite E. reflexivity.
        + eexists. eapply aw_ready. rewrite op_flush_scheduled. cbn. rewrite E. cbn. destruct (w_flush wr (st_w s1)) as [[|] w]; reflexivity. }
    destruct H as [sc H]. exists sc. destruct (w_flush wr (st_w s1)) as [[|] w]; cbn [fst snd] in *.
    + eapply rn_ret; [exact H|constructor].
    + eapply rn_fail; [exact H|reflexivity].
  - exists sched. eapply rn_fail; [eapply aw_ready; rewrite op_flush_scheduled; cbn; rewrite E; reflexivity|reflexivity].
  - exists sched. eapply rn_fail; [eapply aw_ready; rewrite op_flush_scheduled; cbn; rewrite E; reflexivity|reflexivity].
  - now elim Hn.
Qed.
Lemma sim_send_chunks code chunks : forall s, sim (a_send_chunks (scheduled wr) code chunks) s (send_chunks wr code chunks s).
Proof.
  induction chunks as [|t chunks IH]; intros s; cbn [a_send_chunks send_chunks].
  - apply sim_flush.
  - destruct (reply_build _ _ t) as [r|e]; [|apply sim_done].
    apply (sim_ready _ s (fun _ s => andthen (with_start_send s r) (fun _ s => send_chunks wr code chunks s))).
    intros s' _. apply sim_bind; [exact (sim_sync (fun s => with_start_send s r) s')|]. intros [] s'' _. apply IH.
Qed.
Lemma sim_send_reply r s : sim (a_send_reply (scheduled wr) r) s (send_reply wr r s).
Proof.
  unfold a_send_reply, send_reply. destruct (byte_chunks _ _); [apply sim_send_chunks|apply sim_done].
Qed.
Lemma sim_say which s : sim (a_say (scheduled wr) which) s (send_reply wr (which (st_cfg s)) s).
Proof. apply sim_read, sim_send_reply. Qed.

(** ** Reading *)
Lemma awaits_next sched evs : forall ended over (s : state),
  st_reader s = Prep (Src evs ended over) None ->
  awaits op_next tt (World s sched) (Ret (fst (src_next evs ended over))) (World (set_reader s (Prep (snd (src_next evs ended over)) None)) sched).
Proof.
  induction evs as [|[|b] evs IH]; intros ended over s E.
  - eapply aw_ready. unfold op_next. cbn. rewrite E. reflexivity.
  - eapply aw_pend; [unfold op_next; cbn; rewrite E; reflexivity|].
    exact (IH ended over (set_reader s (Prep (Src evs ended over) None)) eq_refl).
  - eapply aw_ready. unfold op_next. cbn. rewrite E. reflexivity.
Qed.
Lemma awaits_prep_next (s : state) sched :
  awaits op_next tt (World s sched) (Ret (fst (prep_next (st_reader s)))) (World (set_reader s (snd (prep_next (st_reader s)))) sched).
Proof.
  destruct (st_reader s) as [[evs ended over] [b|]] eqn:E.
  - eapply aw_ready. unfold op_next. cbn. rewrite E. reflexivity.
  - unfold prep_next. cbn [pr_prepended pr_stream src_events src_ended src_over].
    pose proof (awaits_next sched evs ended over s E) as H. destruct (src_next evs ended over); exact H.
Qed.
Definition line_outcome (r : line_result) : outcome (option bytes) :=
  match r with Line l => Ret (Some l) | NoLine => Ret None | LinePanic => Panic | LineFuel => NoFuel end.
Lemma sim_next_line_loop fuel : forall buf (s : state),
  sim (a_next_line_loop fuel buf) s
      (line_outcome (fst (next_crlf_line_loop fuel (st_reader s) buf)), set_reader s (snd (next_crlf_line_loop fuel (st_reader s) buf))).
Proof.
  induction fuel as [|fuel IH]; intros buf s; cbn [a_next_line_loop next_crlf_line_loop].
  - cbn. intros H. now elim H.
  - intros Hn sched. pose proof (awaits_prep_next s sched) as Ha.
    destruct (prep_next (st_reader s)) as [[pkt|] p] eqn:E; cbn [fst snd] in Ha.
    + destruct (find_sub CRLF (buf ++ pkt)) as [pos|] eqn:F.
      * destruct (prep_prepend p (skipn (pos + 2) (buf ++ pkt))) as [p'|] eqn:G; cbn [fst snd line_outcome] in *.
        -- exists sched. eapply rn_ret; [exact Ha|]. cbv beta iota zeta. rewrite F. cbn [abind a_prepend sync].
           eapply rn_ret; [eapply aw_ready; cbn; rewrite G; reflexivity|constructor].
        -- exists sched. eapply rn_ret; [exact Ha|]. cbv beta iota zeta. rewrite F. cbn [abind a_prepend sync].
           eapply rn_fail; [eapply aw_ready; cbn; rewrite G; reflexivity|reflexivity].
      * destruct (IH (buf ++ pkt) (set_reader s p) Hn sched) as [sc H]. exists sc.
        eapply rn_ret; [exact Ha|]. cbv beta iota zeta. rewrite F. exact H.
    + destruct (prep_prepend p buf) as [p'|] eqn:G; cbn [fst snd line_outcome] in *.
      * exists sched. eapply rn_ret; [exact Ha|]. cbn. eapply rn_ret; [eapply aw_ready; cbn; rewrite G; reflexivity|constructor].
      * exists sched. eapply rn_ret; [exact Ha|]. cbn. eapply rn_fail; [eapply aw_ready; cbn; rewrite G; reflexivity|reflexivity].
Qed.
Lemma sim_next_line (s : state) :
  sim a_next_line s (line_outcome (fst (next_crlf_line (st_reader s))), set_reader s (snd (next_crlf_line (st_reader s)))).
Proof. apply sim_read, sim_next_line_loop. Qed.

(** ** The handler *)
Lemma awaits_stream_loop fuel sched : forall t buf (s : state) r d,
  ds_next_loop fuel (DS (st_reader s) t buf) = (Some r, d) ->
  awaits op_stream (t, buf) (World s sched) (Ret (r, ds_st d, ds_buf d)) (World (set_reader s (ds_source d)) sched).
Proof.
  induction fuel as [|fuel IH]; intros t buf s r d E; [discriminate|]. cbn [ds_next_loop] in E.
  destruct (ds_poll (DS (st_reader s) t buf)) as [[x| |] d'] eqn:P; [|  |discriminate].
  - injection E as <- <-. eapply aw_ready. unfold op_stream. cbn [w_st fst snd]. rewrite P. reflexivity.
  - eapply aw_pend; [unfold op_stream; cbn [w_st fst snd]; rewrite P; reflexivity|].
    apply (IH (ds_st d') (ds_buf d') (set_reader s (ds_source d'))). destruct d'; exact E.
Qed.
Lemma set_reader_same (s : state) : set_reader s (st_reader s) = s.
Proof. now destruct s. Qed.
Lemma sim_read_until fuel stop : forall acc t buf (s : state) r d,
  ds_read_until fuel stop acc (DS (st_reader s) t buf) = (Some r, d) ->
  forall sched, exists sched', runs (a_read_until fuel stop acc t buf) (World s sched) (Ret (fst r, snd r, ds_st d, ds_buf d)) (World (set_reader s (ds_source d)) sched').
Proof.
  induction fuel as [|fuel IH]; intros acc t buf s r d E sched; cbn [ds_read_until a_read_until] in E |- *; destruct (stop acc) eqn:Es.
  - injection E as <- <-. exists sched. cbn. rewrite set_reader_same. constructor.
  - discriminate.
  - injection E as <- <-. exists sched. cbn. rewrite set_reader_same. constructor.
  - destruct (ds_next (DS (st_reader s) t buf)) as [[[b|]|] d'] eqn:N; [| |discriminate].
    + pose proof (awaits_stream_loop _ sched _ _ _ _ _ N) as Ha.
      destruct (IH (acc ++ [b]) (ds_st d') (ds_buf d') (set_reader s (ds_source d')) r d) with (sched := sched) as [sc H].
      { destruct d'; exact E. }
      exists sc. eapply rn_ret; [exact Ha|]. exact H.
    + injection E as <- <-. pose proof (awaits_stream_loop _ sched _ _ _ _ _ N) as Ha.
      exists sched. eapply rn_ret; [exact Ha|]. constructor.
Qed.
Definition handler_end (u0 : U) (m : mail_meta) (s : state)
  (r : outcome (decision * C * U) * bytes * list bool * datastream) : outcome (decision * ds_state) * state :=
  let '(o, data, cs, d) := r in
  let s' := set_reader s (ds_source d) in
  match o with
  | Ret (v, c, u) => (Ret (v, ds_st d), log (set_cu s' c u) (OHandle u0 m data cs (Some (v, u))))
  | Panic => (Panic, log s' (OHandle u0 m data cs None))
  | WriteErr => (WriteErr, s')
  | NoFuel => (NoFuel, s')
  end.
Lemma sim_handler u0 m h : forall t buf data cs (s : state),
  sim (a_handler u0 m h t buf data cs) s (handler_end u0 m s (run_handler h (DS (st_reader s) t buf) data cs)).
Proof.
  induction h as [stop k IH|k IH|q IH|v c u]; intros t buf data cs s; cbn [a_handler run_handler].
  - eapply (sim_user (fun s => (st_reader s, s))); [reflexivity|].
    destruct (ds_read_until (S (ds_size (DS (st_reader s) t buf))) stop [] (DS (st_reader s) t buf)) as [[[items over]|] d] eqn:E.
    + intros Hn sched. destruct (sim_read_until _ _ _ _ _ _ _ _ E sched) as [sc1 H1]. cbn [fst snd] in H1.
      specialize (IH items over (ds_st d) (ds_buf d) (data ++ concat items) cs (set_reader s (ds_source d))).
      assert (Ed : DS (st_reader (set_reader s (ds_source d))) (ds_st d) (ds_buf d) = d) by (now destruct d). rewrite Ed in IH.
      assert (Eh : forall r, handler_end u0 m (set_reader s (ds_source d)) r = handler_end u0 m s r) by (intros [[[[[[]]| | |] ?] ?] ?]; reflexivity).
      rewrite Eh in IH. destruct (IH Hn sc1) as [sc2 H2]. exists sc2. eapply runs_bind; [exact H1|exact H2].
    + cbn. intros H. now elim H.
  - eapply (sim_user (fun s => (st_reader s, s))); [reflexivity|]. destruct (ds_complete (DS (st_reader s) t buf)) as [r d] eqn:E.
    eapply (sim_sync_then _ _ s (r, ds_st d, ds_buf d) (set_reader s (ds_source d))); [rewrite E; reflexivity|].
    assert (Ed : DS (st_reader (set_reader s (ds_source d))) (ds_st d) (ds_buf d) = d) by (now destruct d).
    assert (Eh : forall r, handler_end u0 m (set_reader s (ds_source d)) r = handler_end u0 m s r) by (intros [[[[[[]]| | |] ?] ?] ?]; reflexivity).
    destruct r; cbn beta iota.
    + pose proof (IH true (ds_st d) (ds_buf d) data (cs ++ [true]) (set_reader s (ds_source d))) as H. rewrite Ed, Eh in H. exact H.
    + pose proof (IH false (ds_st d) (ds_buf d) data (cs ++ [false]) (set_reader s (ds_source d))) as H. rewrite Ed, Eh in H. exact H.
    + exact (sim_sync (fun s => (Panic, log s (OHandle u0 m data cs None))) (set_reader s (ds_source d))).
  - eapply (sim_user (fun s => (st_reader s, s))); [reflexivity|]. destruct (ds_poll (DS (st_reader s) t buf)) as [r d] eqn:E.
    assert (Ed : DS (st_reader (set_reader s (ds_source d))) (ds_st d) (ds_buf d) = d) by (now destruct d).
    assert (Eh : forall r, handler_end u0 m (set_reader s (ds_source d)) r = handler_end u0 m s r) by (intros [[[[[[]]| | |] ?] ?] ?]; reflexivity).
    destruct r as [x| |].
    + eapply (sim_sync_then _ _ s (Ready x, ds_st d, ds_buf d) (set_reader s (ds_source d))); [rewrite E; reflexivity|].
      pose proof (IH (Ready x) (ds_st d) (ds_buf d) (data ++ match x with Some b => b | None => [] end) cs (set_reader s (ds_source d))) as H. rewrite Ed, Eh in H. exact H.
    + eapply (sim_sync_then _ _ s (Pending, ds_st d, ds_buf d) (set_reader s (ds_source d))); [rewrite E; reflexivity|].
      pose proof (IH Pending (ds_st d) (ds_buf d) data cs (set_reader s (ds_source d))) as H. rewrite Ed, Eh in H. cbn beta iota. rewrite app_nil_r. exact H.
    + cbn. intros H. now elim H.
  - eapply (sim_user (fun s => (st_reader s, s))); [reflexivity|]. cbn [handler_end ds_source ds_st]. rewrite set_reader_same.
    exact (sim_sync (fun s => (Ret (v, t), log (set_cu s c u) (OHandle u0 m data cs (Some (v, u))))) s).
Qed.

(** ** Commands *)
Lemma sim_mail_cmd from (s : state) : sim (a_mail_cmd cfg (scheduled wr) (scheduled_user cfg) from) s (handle_mail_cmd cfg wr from s).
Proof.
  apply sim_read. unfold handle_mail_cmd. destruct (st_mail s) as [m|]; [apply sim_say|].
  eapply sim_user; [reflexivity|].
  set (s1 := log (set_cfg s (cf_new_mail cfg (st_cfg s))) ONewMail). cbn zeta.
  destruct (cf_filter_from cfg (st_cfg s1) (st_user s1) from) as [[[d c] u] from'] eqn:E.
  eapply sim_user; [unfold call_filter_from; rewrite E; reflexivity|].
  destruct d as [|code msg]; [|apply sim_send_reply].
  apply sim_bind; [apply sim_say|]. intros [] s2 _.
  exact (sim_sync (fun s => (Ret tt, set_mail s (Some (Meta from' [])))) s2).
Qed.
Lemma sim_rcpt_cmd to (s : state) : sim (a_rcpt_cmd cfg (scheduled wr) (scheduled_user cfg) to) s (handle_rcpt_cmd cfg wr to s).
Proof.
  apply sim_read. unfold handle_rcpt_cmd. destruct (st_mail s) as [m|]; [|apply sim_say].
  destruct (cf_filter_to cfg (st_cfg s) (st_user s) m to) as [[[[d c] u] m'] to'] eqn:E.
  eapply sim_user; [unfold call_filter_to; rewrite E; reflexivity|].
  destruct d as [|code msg]; [|apply sim_send_reply].
  eapply sim_sync_then; [reflexivity|]. apply sim_say.
Qed.
Lemma sim_receive_mail m (s : state) : sim (a_receive_mail cfg (scheduled wr) (scheduled_user cfg) m) s (receive_mail cfg wr m s).
Proof.
  unfold receive_mail, a_receive_mail.
  pose proof (sim_handler (st_user s) m (cf_handle_mail cfg (st_cfg s) (st_user s) m) (ds_st (ds_new (st_reader s))) (ds_buf (ds_new (st_reader s))) [] [] s) as H.
  change (DS (st_reader s) (ds_st (ds_new (st_reader s))) (ds_buf (ds_new (st_reader s)))) with (ds_new (st_reader s)) in H.
  destruct (run_handler _ (ds_new (st_reader s)) [] []) as [[[o data] cs] d].
  pose (g := fun (r : decision * ds_state) (s' : state) =>
    match r with
    | (v, Completed) => match v with Accept => send_reply wr (cf_mail_accepted cfg (st_cfg s')) s' | Reject code msg => send_reply wr (code, msg) s' end
    | _ => (Panic, s') end).
  apply (sim_eq _ _ (andthen (handler_end (st_user s) m s (o, data, cs, d)) g)).
  { destruct o as [[[v c] u]| | |]; cbn [handler_end andthen]; try reflexivity. cbn [g]. unfold ds_was_completed.
    destruct (ds_st d); reflexivity. }
  apply sim_bind; [apply sim_read; exact H|]. intros [v t] s' _. cbn [g].
  destruct t; try apply sim_done. destruct v; [apply sim_say|apply sim_send_reply].
Qed.
Lemma sim_data_cmd (s : state) : sim (a_data_cmd cfg (scheduled wr) (scheduled_user cfg)) s (handle_data_cmd cfg wr s).
Proof.
  apply sim_read. unfold handle_data_cmd. destruct (st_mail s) as [m|]; [|apply sim_say].
  eapply sim_sync_then; [reflexivity|]. destruct (mm_to m).
  - apply sim_bind; [apply sim_say|]. intros [] s2 _. exact (sim_sync (fun s => (Ret tt, set_mail s (Some m))) s2).
  - set (s1 := set_mail s None). cbn zeta.
    destruct (cf_filter_data cfg (st_cfg s1) (st_user s1) m) as [[[d c] u] m'] eqn:E.
    eapply sim_user; [unfold call_filter_data; rewrite E; reflexivity|].
    destruct d as [|code msg].
    + apply sim_bind; [apply sim_say|]. intros [] s2 _. apply sim_receive_mail.
    + apply sim_bind; [apply sim_send_reply|]. intros [] s2 _. exact (sim_sync (fun s => (Ret tt, set_mail s (Some m'))) s2).
Qed.
Lemma sim_handle_line line (s : state) : sim (a_handle_line cfg (scheduled wr) (scheduled_user cfg) line) s (handle_line cfg wr line s).
Proof.
  unfold a_handle_line, handle_line. destruct (command_parse line) as [c|n| | |]; try apply sim_say; [|apply sim_done].
  destruct c; try apply sim_say; [apply sim_data_cmd|apply sim_mail_cmd|apply sim_rcpt_cmd].
Qed.
Lemma sim_loop fuel : forall s : state, sim (a_loop cfg (scheduled wr) (scheduled_user cfg) fuel) s (interact_loop cfg wr fuel s).
Proof.
  induction fuel as [|fuel IH]; intros s; cbn [a_loop interact_loop]; [apply sim_done|].
  pose (g := fun (r : option bytes) (s' : state) =>
    match r with Some l => andthen (handle_line cfg wr l s') (fun _ s => interact_loop cfg wr fuel s) | None => (Ret tt, s') end).
  apply (sim_eq _ _ (andthen (line_outcome (fst (next_crlf_line (st_reader s))), set_reader s (snd (next_crlf_line (st_reader s)))) g)).
  { destruct (next_crlf_line (st_reader s)) as [[l| | |] p]; reflexivity. }
  apply sim_bind; [apply sim_next_line|]. intros [l|] s' _; cbn [g]; [|apply sim_done].
  apply sim_bind; [apply sim_handle_line|]. intros [] s2 _. apply IH.
Qed.
Lemma sim_interact incoming w c u :
  sim (interact_future cfg (scheduled wr)) (St c u None (prep_new incoming) w None []) (interact cfg wr incoming w c u).
Proof.
  unfold interact_future, interact_with, interact. apply sim_bind; [apply sim_say|]. intros [] s' _. apply sim_read, sim_loop.
Qed.
End AsyncProofs.
