(** A session with any user code and any sink is, up to where it has come, one of
    Interact.v with a configuration and a writer that give the same answers. *)
From Verif Require Import Bytes Nom SmtpString Ip Message Reply Stream Interact SinkFuture Async AsyncUser SpecPrompt SpecAsync SpecSession SpecUser HandlerProofs AsyncProofs.

Section Any.
Context {C U K : Type}.
Variable ac : aconfig C U.
Variable ks : @ksink K.
Variable allowed : answer C U -> Prop.
Notation ans := {a : answer C U | allowed a}.
Notation C' := (C * list ans)%type.
Notation stK := (@st C U (K * list call)).
Notation stV := (@st C' U (list bool)).
Notation worldK := (@world C U (K * list call)).
Notation async := (@async C U (K * list call)).
Notation out := (any_sink (C := C) (U := U) (recording ks)).
Let cfg' := answering allowed (ac_replies ac).

Definition enc (s : stK) (ua : list ans) (wa : list bool) : stV :=
  St (st_cfg s, ua) (st_user s) (st_mail s) (st_reader s) wa (st_with s) (st_trace s).
Definition begins (t : list (obs U)) (s : stV) : Prop := exists rest, st_trace s = t ++ rest.
Definition ext {A} (F : stV -> outcome A * stV) : Prop := forall s, begins (st_trace s) (snd (F s)).
Definition agrees {A} (r : outcome A + async A) (s' : stK) (ua : list ans) (wa : list bool) (y : outcome A * stV) : Prop :=
  match r with
  | inl Panic => (fst y = Panic /\ st_trace (snd y) = st_trace s') \/ (~ user_safe ac /\ begins (st_trace s') (snd y))
  | inl o => y = (o, enc s' ua wa)
  | inr _ => begins (st_trace s') (snd y)
  end.
Record sees (x x' : worldK) (rec : list call) (t : list (obs U)) : Prop := {
  se_calls : calls x' = calls x ++ rec;
  se_trace : st_trace (w_st x') = st_trace (w_st x) ++ t;
  se_writes : writes t = sent rec
}.
(** The calls of the user's code. *)
Notation calls_of ua := (map (@proj1_sig _ allowed) ua).
Definition tells {A} (r : outcome A + async A) (x x' : worldK) (ua : list ans) (t : list (obs U)) : Prop :=
  exists over c1 u1, called ac (st_cfg (w_st x)) (st_user (w_st x)) t (calls_of ua) over c1 u1
  /\ match r with inl Panic => True | inr _ => over = false | inl _ => over = false /\ c1 = st_cfg (w_st x') /\ u1 = st_user (w_st x') end.
Definition Rw (pre : stK -> Prop) {A} (p : async A) (F : stV -> outcome A * stV) : Prop :=
  ext F /\ forall n x r x', pre (w_st x) -> after_polls n p x = (r, x') ->
    exists ua rec t, sees x x' rec t /\ tells r x x' ua t
    /\ forall ua' wa', agrees r (w_st x') ua' wa' (F (enc (w_st x) (ua ++ ua') (final_answers rec ++ wa'))).
Notation R := (Rw (fun _ => True)).
Lemma Rw_weaken pre {A} (p : async A) F : R p F -> Rw pre p F.
Proof. intros [E H]. split; [exact E|]. intros n x r x' _. now apply H. Qed.
Lemma called_app c u t l c1 u1 t' l' over c2 u2 : called ac c u t l false c1 u1 -> called ac c1 u1 t' l' over c2 u2 ->
  called ac c u (t ++ t') (l ++ l') over c2 u2.
Proof.
  intros H. remember false as b eqn:Eb. revert Eb. induction H; intros Eb H2; cbn [app]; [exact H2|..]; try (econstructor; eauto; fail). discriminate.
Qed.
Lemma tells_nil {A} (r : outcome A + async A) x x' : (forall o, r = inl o -> o <> Panic -> st_cfg (w_st x') = st_cfg (w_st x) /\ st_user (w_st x') = st_user (w_st x)) -> tells r x x' [] [].
Proof.
  intros H. exists false, (st_cfg (w_st x)), (st_user (w_st x)). split; [constructor|].
  destruct r as [[a| | |]|p]; auto; split; auto; [edestruct (H (Ret a)) as [-> ->]|edestruct (H WriteErr) as [-> ->]|edestruct (H NoFuel) as [-> ->]]; eauto; discriminate.
Qed.

(** ** Sequencing *)
Lemma sees_refl x : sees x x [] [].
Proof. split; rewrite ?app_nil_r; reflexivity. Qed.
Lemma sees_trans x y z rec t rec' t' : sees x y rec t -> sees y z rec' t' -> sees x z (rec ++ rec') (t ++ t').
Proof.
  intros [A1 A2 A3] [B1 B2 B3]. split.
  - now rewrite B1, A1, app_assoc.
  - now rewrite B2, A2, app_assoc.
  - unfold writes, sent in *. now rewrite !flat_map_app, A3, B3.
Qed.
Lemma final_app a b : final_answers (a ++ b) = final_answers a ++ final_answers b.
Proof. apply flat_map_app. Qed.
Lemma begins_trans t s s' : begins t s -> begins (st_trace s) s' -> begins t s'.
Proof. intros [a E] [b F]. exists (a ++ b). now rewrite F, E, app_assoc. Qed.
Lemma ext_then {A B} (F : stV -> outcome A * stV) (G : A -> stV -> outcome B * stV) :
  ext F -> (forall a, ext (G a)) -> ext (fun s => andthen (F s) G).
Proof.
  intros HF HG s. specialize (HF s). destruct (F s) as [[a| | |] s']; cbn in *; try exact HF. eapply begins_trans; [exact HF|apply HG].
Qed.
Lemma poll_bind {A B} (p : async A) (f : A -> async B) x :
  poll_async (abind p f) x =
  match poll_async p x with
  | (inl (Ret a), x1) => poll_async (f a) x1
  | (inl WriteErr, x1) => (inl WriteErr, x1)
  | (inl Panic, x1) => (inl Panic, x1)
  | (inl NoFuel, x1) => (inl NoFuel, x1)
  | (inr q, x1) => (inr (abind q f), x1)
  end.
Proof.
  revert x. induction p as [[a| | |]|L T op l k IH]; intros x; cbn; try reflexivity.
  destruct (op l x) as [[[|[b| | |]] l'] x1]; try reflexivity. apply IH.
Qed.
(** Where [n] polls of [p; f] have come. *)
Inductive come {A B} (p : async A) (f : A -> async B) n x : (outcome B + async B) * worldK -> Prop :=
| co_wait q x' : after_polls n p x = (inr q, x') -> come p f n x (inr (abind q f), x')
| co_fail e o x' : after_polls n p x = (inl e, x') -> failed e = Some o -> come p f n x (inl o, x')
| co_go a k m x1 y : after_polls k p x = (inl (Ret a), x1) -> after_polls m (f a) x1 = y -> come p f n x y.
Lemma polls_bind {A B} (f : A -> async B) n : forall (p : async A) x, come p f n x (after_polls n (abind p f) x).
Proof.
  induction n as [|n IH]; intros p x; cbn [after_polls].
  - now apply co_wait.
  - rewrite poll_bind. destruct (poll_async p x) as [[[a| | |]|q] x1] eqn:P.
    + apply (co_go p f (S n) x a 1 (S n) x1); [cbn; now rewrite P|]. reflexivity.
    + eapply co_fail; [cbn; now rewrite P|reflexivity].
    + eapply co_fail; [cbn; now rewrite P|reflexivity].
    + eapply co_fail; [cbn; now rewrite P|reflexivity].
    + destruct (IH q x1) as [q' x' E|e o x' E H|a k m x2 y E H].
      * apply co_wait. cbn. now rewrite P.
      * eapply co_fail; [cbn; rewrite P; exact E|exact H].
      * apply (co_go p f (S n) x a (S k) m x2); [cbn; now rewrite P|exact H].
Qed.
Lemma tells_go {A B} (a : A) (r : outcome B + async B) x x1 x' ua t ua' t' : tells (inl (Ret a)) x x1 ua t -> tells r x1 x' ua' t' -> tells r x x' (ua ++ ua') (t ++ t').
Proof.
  intros (o1 & c1 & u1 & H1 & (-> & -> & ->)) (o2 & c2 & u2 & H2 & E2). exists o2, c2, u2. rewrite map_app. split; [eapply called_app; eassumption|exact E2].
Qed.
Lemma Rw_bind pre {A B} (p : async A) (f : A -> async B) F G :
  Rw pre p F -> (forall a, R (f a) (G a)) -> Rw pre (abind p f) (fun s => andthen (F s) G).
Proof.
  intros [EF HF] HG. assert (EG : forall a, ext (G a)) by (intros a; apply HG).
  split; [now apply ext_then|]. intros n x r x' Hx E.
  pose proof (polls_bind f n p x) as Hc. rewrite E in Hc. clear E. remember (r, x') as y0 eqn:Ey.
  destruct Hc as [q x1 P|e o x1 P Hf|a k m x1 y P Q]; [injection Ey as <- <-|injection Ey as <- <-|subst y].
  - destruct (HF _ _ _ _ Hx P) as (ua & rec & t & S & T & H). exists ua, rec, t. split; [exact S|]. split; [exact T|].
    intros ua' wa'. specialize (H ua' wa'). cbn in H |- *.
    destruct (F _) as [[a| | |] s'] eqn:Ef; cbn in H |- *; try exact H. eapply begins_trans; [exact H|apply EG].
  - destruct (HF _ _ _ _ Hx P) as (ua & rec & t & S & T & H). exists ua, rec, t. split; [exact S|].
    split; [destruct e; cbn in Hf; try discriminate; injection Hf as <-; exact T|].
    intros ua' wa'. specialize (H ua' wa'). destruct e; cbn in Hf; try discriminate; injection Hf as <-; cbn in H |- *.
    + now rewrite H.
    + destruct H as [[H Ht]|[Hn H]]; [left; destruct (F _) as [o s']; cbn in H; subst o; now split|right]. split; [exact Hn|].
      destruct (F _) as [[a| | |] s'] eqn:Ef; cbn in H |- *; try exact H. eapply begins_trans; [exact H|apply EG].
    + now rewrite H.
  - destruct (HF _ _ _ _ Hx P) as (ua & rec & t & S & T & H). destruct (proj2 (HG a) _ _ _ _ I Q) as (ua2 & rec2 & t2 & S2 & T2 & H2).
    exists (ua ++ ua2), (rec ++ rec2), (t ++ t2). split; [eapply sees_trans; eassumption|]. split; [eapply tells_go; eassumption|].
    intros ua' wa'. rewrite final_app, <- !app_assoc. specialize (H (ua2 ++ ua') (final_answers rec2 ++ wa')). cbn in H. rewrite H.
    cbn [andthen]. apply H2.
Qed.
Lemma R_bind {A B} (p : async A) (f : A -> async B) F G :
  R p F -> (forall a, R (f a) (G a)) -> R (abind p f) (fun s => andthen (F s) G).
Proof. apply Rw_bind. Qed.
Lemma R_eq {pre A} (p : async A) F F' : (forall s, F s = F' s) -> Rw pre p F -> Rw pre p F'.
Proof.
  intros H [E HF]. split.
  - intros s. rewrite <- H. apply E.
  - intros n x r x' Hx P. destruct (HF _ _ _ _ Hx P) as (ua & rec & t & S & T & Ha). exists ua, rec, t. split; [exact S|]. split; [exact T|].
    intros ua' wa'. rewrite <- H. apply Ha.
Qed.
Lemma R_done {A} (o : outcome A) : R (ADone o) (fun s => (o, s)).
Proof.
  split; [intros s; exists []; symmetry; apply app_nil_r|]. intros n x r x' _ E. exists [], [], [].
  destruct n as [|n]; cbn in E; injection E as <- <-; (split; [apply sees_refl|]); (split; [apply tells_nil; auto|]); intros ua' wa'.
  - exists []. symmetry. apply app_nil_r.
  - cbn. destruct o; auto.
Qed.
(** A future of [interact] itself that is awaited, whose polls the other session does
    not tell from one: it may write, and leaves the configuration alone. *)
Definition leaves (x x' : worldK) (t : list (obs U)) : Prop :=
  st_cfg (w_st x') = st_cfg (w_st x) /\ st_user (w_st x') = st_user (w_st x) /\ t = map OWrite (writes t).
Lemma leaves_trans x y z t t' : leaves x y t -> leaves y z t' -> leaves x z (t ++ t').
Proof.
  intros (A1 & A2 & A3) (B1 & B2 & B3). split; [congruence|]. split; [congruence|]. unfold writes in *. rewrite flat_map_app, map_app. congruence.
Qed.
Lemma called_writes c u bs : called ac c u (map OWrite bs) [] false c u.
Proof. induction bs; cbn; now constructor. Qed.
Lemma leaves_tells {A} (r : outcome A + async A) x x' t : leaves x x' t -> tells r x x' [] t.
Proof.
  intros (H1 & H2 & H3). exists false, (st_cfg (w_st x)), (st_user (w_st x)). rewrite H3. split; [apply called_writes|]. destruct r as [[a| | |]|p]; auto.
Qed.
Lemma R_leaf {L B} (op : L -> worldK -> poll (outcome B) * L * worldK) F : ext F ->
  (forall l x r l' x', op l x = (r, l', x') -> exists rec t, sees x x' rec t /\ leaves x x' t
     /\ forall ua' wa', F (enc (w_st x) ua' (final_answers rec ++ wa'))
        = match r with Ready o => (o, enc (w_st x') ua' wa') | Pending => F (enc (w_st x') ua' wa') end) ->
  forall l, R (AAwait op l (fun b => ADone (Ret b))) F.
Proof.
  intros EF H l. split; [exact EF|].
  assert (G : forall n l x r x', after_polls n (AAwait op l (fun b => ADone (Ret b))) x = (r, x') -> exists rec t, sees x x' rec t /\ leaves x x' t
    /\ forall ua' wa', agrees r (w_st x') ua' wa' (F (enc (w_st x) ua' (final_answers rec ++ wa')))).
  { intros n. induction n as [|n IH]; intros l0 x r x' E; cbn [after_polls] in E.
    - injection E as <- <-. exists [], []. split; [apply sees_refl|]. split; [now repeat split|]. intros ua' wa'. apply (EF (enc (w_st x) ua' wa')).
    - cbn [poll_async] in E. destruct (op l0 x) as [[q l'] x1] eqn:Q. destruct (H _ _ _ _ _ Q) as (rec & t & S & T & Hq).
      destruct q as [|o].
      + destruct (IH _ _ _ _ E) as (rec2 & t2 & S2 & T2 & H2). exists (rec ++ rec2), (t ++ t2). split; [eapply sees_trans; eassumption|]. split; [eapply leaves_trans; eassumption|].
        intros ua' wa'. rewrite final_app, <- app_assoc, Hq. apply H2.
      + exists rec, t. assert (Ex : r = inl o /\ x' = x1) by (destruct o; injection E as <- <-; now split). destruct Ex as [-> ->].
        split; [exact S|]. split; [exact T|]. intros ua' wa'. rewrite Hq. destruct o; cbn; auto. }
  intros n x r x' _ E. destruct (G _ _ _ _ _ E) as (rec & t & S & T & Ha). exists [], rec, t. split; [exact S|]. split; [now apply leaves_tells|exact Ha].
Qed.
Lemma R_sync {B} (f : stK -> outcome B * stK) (F : stV -> outcome B * stV) : ext F ->
  (forall s, st_cfg (snd (f s)) = st_cfg s /\ st_user (snd (f s)) = st_user s /\ snd (st_w (snd (f s))) = snd (st_w s) /\ st_trace (snd (f s)) = st_trace s
     /\ forall ua wa, F (enc s ua wa) = (fst (f s), enc (snd (f s)) ua wa)) ->
  R (sync f) F.
Proof.
  intros EF H. apply R_leaf; [exact EF|]. intros l x r l' x' E. destruct (H (w_st x)) as (H1 & H2 & H3 & H4 & H5).
  destruct (f (w_st x)) as [o s']. injection E as <- <- <-. cbn in H1, H2, H3, H4, H5. exists [], []. split.
  - split; cbn; rewrite ?app_nil_r; [assumption..|reflexivity].
  - split; [now repeat split|]. intros ua wa. apply H5.
Qed.
Lemma Rw_read {A B} (f : stK -> B) (f' : stV -> B) (q : B -> async A) G :
  (forall s ua wa, f' (enc s ua wa) = f s) -> (forall v, Rw (fun s => f s = v) (q v) (G v)) -> R (abind (read f) q) (fun s => G (f' s) s).
Proof.
  intros H HG. split; [intros s; apply (HG (f' s))|]. intros n x r x' _ E.
  pose proof (polls_bind q n (read f) x) as Hc. rewrite E in Hc. remember (r, x') as y0 eqn:Ey.
  assert (Hr : forall m o x1, after_polls m (read f) x = (inl o, x1) -> o = Ret (f (w_st x)) /\ x1 = x).
  { intros [|m] o x1 P; cbn in P; [discriminate|]. destruct x. injection P as <- <-. now split. }
  assert (Hw : forall m q0 x1, after_polls m (read f) x = (inr q0, x1) -> x1 = x).
  { intros [|m] q0 x1 P; cbn in P; [now injection P|]. destruct x. discriminate. }
  destruct Hc as [q0 x1 P|e o x1 P Hf|a k m x1 y P Q]; [injection Ey as <- <-|injection Ey as <- <-|subst y].
  - apply Hw in P. subst x1. exists [], [], []. split; [apply sees_refl|]. split; [apply tells_nil; auto|].
    intros ua' wa'. exact (proj1 (HG _) (enc (w_st x) ua' wa')).
  - apply Hr in P. destruct P as [-> _]. discriminate.
  - apply Hr in P. destruct P as [Ea ->]. injection Ea as ->. destruct (proj2 (HG (f (w_st x))) _ _ _ _ eq_refl Q) as (ua & rec & t & S & T & Ha).
    exists ua, rec, t. split; [exact S|]. split; [exact T|]. intros ua' wa'. rewrite H. apply Ha.
Qed.
Lemma R_read {A B} (f : stK -> B) (f' : stV -> B) (q : B -> async A) G :
  (forall s ua wa, f' (enc s ua wa) = f s) -> (forall v, R (q v) (G v)) -> R (abind (read f) q) (fun s => G (f' s) s).
Proof. intros H HG. apply (Rw_read f f' q G H). intros v. apply Rw_weaken, HG. Qed.

(** ** The writer *)
Lemma ext_same {A} (F : stV -> outcome A * stV) : (forall s, st_trace (snd (F s)) = st_trace s) -> ext F.
Proof. intros H s. exists []. rewrite app_nil_r. apply H. Qed.
Lemma ext_with_poll : ext (with_poll replay).
Proof.
  intros s. unfold with_poll. destruct (st_with s) as [b|]; [|exists []; symmetry; apply app_nil_r].
  cbv zeta. destruct (w_send replay _ b) as [[|] w]; cbn; [now exists [OWrite b]|exists []; symmetry; apply app_nil_r].
Qed.
Lemma ext_ready : ext (with_poll_ready replay).
Proof.
  apply (ext_then (with_poll replay) (fun _ s => match w_ready replay (st_w s) with (true, w) => (Ret tt, set_w s w) | (false, w) => (WriteErr, set_w s w) end)); [apply ext_with_poll|].
  intros _. apply ext_same. intros s. destruct (w_ready replay (st_w s)) as [[|] w]; reflexivity.
Qed.
Lemma ext_flush : ext (with_poll_flush replay).
Proof.
  apply (ext_then (with_poll replay) (fun _ s => match w_flush replay (st_w s) with (true, w) => (Ret tt, set_w s w) | (false, w) => (WriteErr, set_w s w) end)); [apply ext_with_poll|].
  intros _. apply ext_same. intros s. destruct (w_flush replay (st_w s)) as [[|] w]; reflexivity.
Qed.
Lemma with_poll_any (x : worldK) :
  exists rec t, sees x (upd x (snd (with_poll (@sender C U _ out) (w_st x)))) rec t
  /\ leaves x (upd x (snd (with_poll (@sender C U _ out) (w_st x)))) t
  /\ forall ua wa, with_poll replay (enc (w_st x) ua (final_answers rec ++ wa))
     = (fst (with_poll (@sender C U _ out) (w_st x)), enc (snd (with_poll (@sender C U _ out) (w_st x))) ua wa).
Proof.
  destruct x as [[c u m rd [k h] [b|] tr] sch]; unfold with_poll, calls; cbn -[writes].
  - destruct (k_start ks k b) as [[| |] k'] eqn:E; cbn -[writes].
    + exists [CSend b true], [OWrite b]. split; [now split|]. split; [now repeat split|]. reflexivity.
    + exists [CSend b false], []. split; [split; cbn; rewrite ?app_nil_r; reflexivity|]. split; [now repeat split|]. reflexivity.
    + exists [CSend b false], []. split; [split; cbn; rewrite ?app_nil_r; reflexivity|]. split; [now repeat split|]. reflexivity.
  - exists [], []. split; [split; cbn; rewrite ?app_nil_r; reflexivity|]. split; [now repeat split|]. reflexivity.
Qed.
Lemma with_poll_again (s : stV) o s' : with_poll replay s = (Ret o, s') -> forall (ua : list ans) wa (c : C), with_poll replay (St (c, ua) (st_user s') (st_mail s') (st_reader s') wa (st_with s') (st_trace s'))
  = (Ret tt, St (c, ua) (st_user s') (st_mail s') (st_reader s') wa (st_with s') (st_trace s')).
Proof.
  unfold with_poll. destruct (st_with s) as [b|] eqn:Es.
  - cbv zeta. destruct (w_send replay (st_w (set_with s None)) b) as [[|] w']; [|discriminate]. intros E. injection E as <- <-. reflexivity.
  - intros E. injection E as <- <-. cbn. rewrite Es. reflexivity.
Qed.
Lemma R_ready : forall l, R (AAwait (op_ready out) l (fun b => ADone (Ret b))) (with_poll_ready replay).
Proof.
  apply R_leaf; [apply ext_ready|]. intros l x r l' x' E. destruct (with_poll_any x) as (rec & t & S & T & H). unfold op_ready in E.
  destruct (with_poll (@sender C U _ out) (w_st x)) as [o s] eqn:P. cbn [fst snd] in *. unfold with_poll_ready.
  destruct o as [[]| | |]; [|injection E as <- <- <-; exists rec, t; (split; [exact S|]); (split; [exact T|]); intros ua wa; rewrite H; reflexivity..].
  destruct s as [c u m rd [k h] wi tr]. cbn in E. destruct (k_ready ks k) as [a k'] eqn:Ek. cbn in E.
  assert (Ex : x' = World (St c u m rd (k', h ++ [CReady a]) wi tr) (w_sched x) /\ r = match a with Pending => Pending | Ready true => Ready (Ret tt) | Ready false => Ready WriteErr end).
  { destruct a as [|[|]]; injection E as <- <- <-; split; reflexivity. }
  destruct Ex as [-> ->]. exists (rec ++ [CReady a]), t. split.
  - destruct S as [S1 S2 S3]. cbn in S1, S2. split; cbn; [now rewrite S1, app_assoc|exact S2|]. unfold sent in *. rewrite flat_map_app, S3. cbn. now rewrite app_nil_r.
  - split; [exact T|]. intros ua wa. rewrite final_app, <- app_assoc, H. destruct a as [|ok]; cbn.
    + specialize (H ua wa). pose proof (with_poll_again _ _ _ H ua wa c) as G. cbn in G. unfold enc. cbn. rewrite G. reflexivity.
    + destruct ok; reflexivity.
Qed.
Lemma R_flush : forall l, R (AAwait (op_flush out) l (fun b => ADone (Ret b))) (with_poll_flush replay).
Proof.
  apply R_leaf; [apply ext_flush|]. intros l x r l' x' E. destruct (with_poll_any x) as (rec & t & S & T & H). unfold op_flush in E.
  destruct (with_poll (@sender C U _ out) (w_st x)) as [o s] eqn:P. cbn [fst snd] in *. unfold with_poll_flush.
  destruct o as [[]| | |]; [|injection E as <- <- <-; exists rec, t; (split; [exact S|]); (split; [exact T|]); intros ua wa; rewrite H; reflexivity..].
  destruct s as [c u m rd [k h] wi tr]. cbn in E. destruct (k_flush ks k) as [a k'] eqn:Ek. cbn in E.
  assert (Ex : x' = World (St c u m rd (k', h ++ [CFlush a]) wi tr) (w_sched x) /\ r = match a with Pending => Pending | Ready true => Ready (Ret tt) | Ready false => Ready WriteErr end).
  { destruct a as [|[|]]; injection E as <- <- <-; split; reflexivity. }
  destruct Ex as [-> ->]. exists (rec ++ [CFlush a]), t. split.
  - destruct S as [S1 S2 S3]. cbn in S1, S2. split; cbn; [now rewrite S1, app_assoc|exact S2|]. unfold sent in *. rewrite flat_map_app, S3. cbn. now rewrite app_nil_r.
  - split; [exact T|]. intros ua wa. rewrite final_app, <- app_assoc, H. destruct a as [|ok]; cbn.
    + specialize (H ua wa). pose proof (with_poll_again _ _ _ H ua wa c) as G. cbn in G. unfold enc. cbn. rewrite G. reflexivity.
    + destruct ok; reflexivity.
Qed.
Lemma R_send_chunks code chunks : R (a_send_chunks out code chunks) (send_chunks replay code chunks).
Proof.
  induction chunks as [|t chunks IH]; cbn [a_send_chunks].
  - apply (R_eq _ (fun s => andthen (with_poll_flush replay s) (fun _ s => (Ret tt, s)))).
    { intros s. cbn [send_chunks]. destruct (with_poll_flush replay s) as [[[]| | |] s']; reflexivity. }
    apply (R_bind (AAwait (op_flush out) tt (fun b => ADone (Ret b))) (fun _ => ADone (Ret tt))); [apply R_flush|]. intros _. apply R_done.
  - apply (R_eq _ (match reply_build code (match chunks with [] => true | _ => false end) t with
      | inr _ => fun s => (Panic, s)
      | inl r => fun s => andthen (with_poll_ready replay s) (fun _ s => andthen (with_start_send s r) (fun _ s => send_chunks replay code chunks s)) end)).
    { intros s. cbn [send_chunks]. destruct (reply_build _ _ t); reflexivity. }
    destruct (reply_build _ _ t) as [r|e]; [|apply R_done].
    apply (R_bind (AAwait (op_ready out) tt (fun b => ADone (Ret b))) (fun _ => abind (sync (fun s => with_start_send s r)) (fun _ => a_send_chunks out code chunks))); [apply R_ready|].
    intros _. apply (R_bind (sync (fun s => with_start_send s r)) (fun _ => a_send_chunks out code chunks) (fun s => with_start_send s r)); [|intros _; exact IH].
    apply R_sync.
    + apply ext_same. intros s. unfold with_start_send. destruct (_ <? _)%nat; reflexivity.
    + intros s. unfold with_start_send. destruct (_ <? _)%nat; cbn; now repeat split.
Qed.
Lemma R_send_reply reply : R (a_send_reply out reply) (send_reply replay reply).
Proof.
  unfold a_send_reply. apply (R_eq _ (match byte_chunks (snd reply) (N.of_nat MAX_LEN) with None => fun s => (Panic, s) | Some chunks => send_chunks replay (fst reply) chunks end)).
  { intros s. unfold send_reply. destruct (byte_chunks _ _); reflexivity. }
  destruct (byte_chunks _ _); [apply R_send_chunks|apply R_done].
Qed.
Lemma R_say which (which' : C' -> N * bytes) : (forall c, which' c = which (fst c)) ->
  R (a_say out which) (fun s => send_reply replay (which' (st_cfg s)) s).
Proof.
  intros H. apply (R_read _ (fun s : stV => which' (st_cfg s)) _ (fun r s => send_reply replay r s)).
  - intros s ua wa. apply H.
  - apply R_send_reply.
Qed.

(** ** Reading lines *)
Definition read_next (s : stV) : outcome (option bytes) * stV := (Ret (fst (prep_next (st_reader s))), set_reader s (snd (prep_next (st_reader s)))).
Lemma R_next : forall l, R (AAwait op_next l (fun b => ADone (Ret b))) read_next.
Proof.
  apply R_leaf; [now apply ext_same|]. intros l x r l' x' E. unfold op_next in E.
  destruct x as [[c u m [[evs en ov] pp] [k h] wi tr] sch]. unfold prep_poll in E. cbn in E.
  exists [], []. destruct pp as [b|].
  - injection E as <- <- <-. split; [split; cbn; rewrite ?app_nil_r; reflexivity|]. split; [now repeat split|]. reflexivity.
  - destruct evs as [|[|b] evs]; cbn in E; injection E as <- <- <-; (split; [split; cbn; rewrite ?app_nil_r; reflexivity|]); (split; [now repeat split|]); reflexivity.
Qed.
Lemma R_prepend b : R (a_prepend b) (fun s => match prep_prepend (st_reader s) b with Some p => (Ret tt, set_reader s p) | None => (Panic, s) end).
Proof.
  apply R_sync.
  - apply ext_same. intros s. destruct (prep_prepend (st_reader s) b); reflexivity.
  - intros s. cbn. destruct (prep_prepend (st_reader s) b); cbn; now repeat split.
Qed.
Definition line_of (r : line_result * prependable) (s : stV) : outcome (option bytes) * stV := (line_outcome (fst r), set_reader s (snd r)).
Lemma R_next_line_loop fuel : forall buf, R (a_next_line_loop fuel buf) (fun s => line_of (next_crlf_line_loop fuel (st_reader s) buf) s).
Proof.
  induction fuel as [|fuel IH]; intros buf; cbn [a_next_line_loop].
  - apply (R_eq _ (fun s => (NoFuel, s))); [|apply R_done]. intros [? ? ? ? ? ? ?]; reflexivity.
  - pose (G := fun (r : option bytes) => match r with
      | Some pkt => match find_sub CRLF (buf ++ pkt) with
                    | Some pos => fun s : stV => andthen (match prep_prepend (st_reader s) (skipn (pos + 2) (buf ++ pkt)) with Some p => (Ret tt, set_reader s p) | None => (Panic, s) end)
                                   (fun _ s => (Ret (Some (firstn (pos + 2) (buf ++ pkt))), s))
                    | None => fun s => line_of (next_crlf_line_loop fuel (st_reader s) (buf ++ pkt)) s end
      | None => fun s => andthen (match prep_prepend (st_reader s) buf with Some p => (Ret tt, set_reader s p) | None => (Panic, s) end) (fun _ s => (Ret None, s))
      end).
    apply (R_eq _ (fun s => andthen (read_next s) G)).
    { intros [c u m rd w wi tr]. unfold line_of. cbn [next_crlf_line_loop st_reader read_next andthen]. unfold read_next. cbn [st_reader andthen].
      destruct (prep_next rd) as [[pkt|] p]; cbn [fst snd G andthen].
      - destruct (find_sub CRLF (buf ++ pkt)) as [pos|]; [|reflexivity]. cbn. destruct (prep_prepend p _); reflexivity.
      - cbn. destruct (prep_prepend p buf); reflexivity. }
    apply (R_bind (AAwait op_next tt (fun b => ADone (Ret b))) (fun r => match r with
      | Some pkt => let buf := buf ++ pkt in
          match find_sub CRLF buf with
          | Some pos => abind (a_prepend (skipn (pos + 2) buf)) (fun _ => ADone (Ret (Some (firstn (pos + 2) buf))))
          | None => a_next_line_loop fuel buf
          end
      | None => abind (a_prepend buf) (fun _ => ADone (Ret None)) end)); [apply R_next|].
    intros [pkt|]; cbn [G]; cbv zeta.
    + destruct (find_sub CRLF (buf ++ pkt)); [|apply IH]. apply (R_bind _ _ _ (fun _ s => (Ret (Some _), s)) (R_prepend _)). intros _. apply R_done.
    + apply (R_bind _ _ _ (fun _ s => (Ret None, s)) (R_prepend _)). intros _. apply R_done.
Qed.
Lemma R_next_line : R a_next_line (fun s => line_of (next_crlf_line (st_reader s)) s).
Proof.
  apply (R_read _ (fun s : stV => length (src_events (pr_stream (st_reader s))) + 2) _ (fun fuel s => line_of (next_crlf_line_loop fuel (st_reader s) []) s)); [reflexivity|].
  intros fuel. apply R_next_line_loop.
Qed.

(** ** The configuration *)
Definition same {A} (y y' : outcome A * stV) : Prop := y = y' \/ (fst y = Panic /\ fst y' = Panic /\ st_trace (snd y) = st_trace (snd y')).
Lemma same_refl {A} (y : outcome A * stV) : same y y.
Proof. now left. Qed.
Lemma same_trans {A} (y y' y'' : outcome A * stV) : same y y' -> same y' y'' -> same y y''.
Proof.
  intros [-> |(A1 & A2 & A3)]; [exact (fun H => H)|]. intros [<- |(B1 & B2 & B3)]; right; [now repeat split|]. split; [exact A1|]. split; [exact B2|congruence].
Qed.
Definition tells_of (s : stK) (e : obs U) (a : answer C U) (over : bool) (z : stK) : Prop :=
  exists c1 u1, called ac (st_cfg s) (st_user s) [e] [a] over c1 u1 /\ (over = false -> c1 = st_cfg z /\ u1 = st_user z).
Definition panics {A} (o : outcome A) : bool := match o with Panic => true | _ => false end.
Lemma R_answer (pre : stK -> Prop) {L B Y} (op : L -> worldK -> poll (outcome B) * L * worldK) (F : stV -> outcome B * stV)
  (G : L -> stK -> Y -> list ans -> list bool -> outcome B * stV) (inv : L -> Prop) (fits : L -> Y -> Prop)
  (gen : L -> stK -> obs U -> Y -> bool -> stK -> Prop) (mk : Y -> answer C U) (l0 : L) :
  ext F -> inv l0 ->
  (forall y, fits l0 y -> allowed (mk y)) ->
  (forall s e y over z, pre s -> gen l0 s e y over z -> tells_of s e (mk y) over z) ->
  (forall y H s ua wa, same (F (enc s (exist _ (mk y) H :: ua) wa)) (G l0 s y ua wa)) ->
  (forall l x r l' x', inv l -> op l x = (r, l', x') -> calls x' = calls x /\
     match r with
     | Pending => inv l' /\ st_trace (w_st x') = st_trace (w_st x)
         /\ forall y, fits l' y -> exists y', fits l y' /\ (forall e over z, gen l' (w_st x') e y over z -> gen l (w_st x) e y' over z)
            /\ forall ua wa, same (G l (w_st x) y' ua wa) (G l' (w_st x') y ua wa)
     | Ready o =>
         (exists e y, fits l y /\ gen l (w_st x) e y (panics o) (w_st x') /\ st_trace (w_st x') = st_trace (w_st x) ++ [e] /\ writes [e] = []
            /\ forall ua wa, same (G l (w_st x) y ua wa) (o, enc (w_st x') ua wa))
         \/ (o = Panic /\ st_trace (w_st x') = st_trace (w_st x) /\ ~ user_safe ac)
     end) ->
  Rw pre (AAwait op l0 (fun b => ADone (Ret b))) F.
Proof.
  intros EF HI HA HT HF H.
  assert (HG : forall n l x r x', inv l -> after_polls n (AAwait op l (fun b => ADone (Ret b))) x = (r, x') -> calls x' = calls x /\
    match r with
    | inr _ => st_trace (w_st x') = st_trace (w_st x)
    | inl o => (exists e y, fits l y /\ gen l (w_st x) e y (panics o) (w_st x') /\ st_trace (w_st x') = st_trace (w_st x) ++ [e] /\ writes [e] = []
            /\ forall ua wa, same (G l (w_st x) y ua wa) (o, enc (w_st x') ua wa))
         \/ (o = Panic /\ st_trace (w_st x') = st_trace (w_st x) /\ ~ user_safe ac)
    end).
  { induction n as [|n IH]; intros l x r x' Hl E; cbn [after_polls] in E.
    - injection E as <- <-. split; reflexivity.
    - cbn [poll_async] in E. destruct (op l x) as [[q l'] x1] eqn:Q. destruct (H _ _ _ _ _ Hl Q) as (Hc & Hq). destruct q as [|o].
      + destruct Hq as (Hl' & Ht & Hq). destruct (IH _ _ _ _ Hl' E) as (Ic & It). split; [congruence|]. destruct r as [o|p]; [|congruence].
        destruct It as [(e & y & F1 & Fg & F2 & F3 & F4)|(-> & It & Hs)].
        * left. destruct (Hq y F1) as (y' & Fa & Fb & Ha). exists e, y'. split; [exact Fa|]. split; [apply Fb, Fg|]. split; [now rewrite F2, Ht|]. split; [exact F3|].
          intros ua wa. eapply same_trans; [apply Ha|apply F4].
        * right. split; [reflexivity|]. split; [congruence|exact Hs].
      + assert (Ex : r = inl o /\ x' = x1) by (destruct o; injection E as <- <-; now split). destruct Ex as [-> ->]. now split. }
  split; [apply EF|]. intros n x r x' Hx E. destruct (HG _ _ _ _ _ HI E) as (Hc & Hr).
  assert (S0 : st_trace (w_st x') = st_trace (w_st x) -> sees x x' [] []).
  { intros Ht. split; rewrite ?app_nil_r; [exact Hc|exact Ht|reflexivity]. }
  destruct r as [o|p].
  - destruct Hr as [(e & y & F1 & Fg & F2 & F3 & F4)|(-> & Ht & Hs)].
    + exists [exist _ (mk y) (HA y F1)], [], [e]. split; [split; rewrite ?app_nil_r; [exact Hc|exact F2|exact F3]|]. split.
      { destruct (HT _ _ _ _ _ Hx Fg) as (c1 & u1 & T1 & T2). exists (panics o), c1, u1. split; [exact T1|]. destruct o; cbn in *; auto. }
      intros ua wa. unfold final_answers. cbn [app flat_map]. pose proof (same_trans _ _ _ (HF y (HA y F1) (w_st x) ua wa) (F4 ua wa)) as Sm.
      destruct (F (enc (w_st x) (exist _ (mk y) (HA y F1) :: ua) wa)) as [o1 s1]. destruct Sm as [F5|(F5 & F6 & F7)]; [injection F5 as -> ->; destruct o; cbn; auto|]. cbn in F6, F7. subst o. left. now split.
    + exists [], [], []. split; [now apply S0|]. split; [apply tells_nil; congruence|]. intros ua wa. right. split; [exact Hs|]. rewrite Ht. apply (EF (enc (w_st x) ua wa)).
  - exists [], [], []. split; [now apply S0|]. split; [apply tells_nil; discriminate|]. intros ua wa. cbn. rewrite Hr. apply (EF (enc (w_st x) ua wa)).
Qed.
Lemma ext_log {A} (F : stV -> outcome A * stV) : (forall s, exists e, st_trace (snd (F s)) = st_trace s ++ [e]) -> ext F.
Proof. intros H s. destruct (H s) as [e E]. now exists [e]. Qed.
Hypothesis allowed_new : forall l c l' c', uf_poll (ac_new_mail ac) l c = (Ready (Some tt), l', c') -> allowed (ANewMail c').
Lemma R_new_mail : R (us_new_mail (any_user ac)) (fun s => (Ret tt, snd (call_new_mail cfg' s))).
Proof.
  apply (R_answer (fun _ => True) (op_new_mail ac) _ (fun _ s c ua wa => (Ret tt, enc (log (set_cfg s c) ONewMail) ua wa)) (fun _ => True) (fun _ c => allowed (ANewMail c))
    (fun l s e c over z => ends_with (ac_new_mail ac) l (st_cfg s) tt c /\ e = ONewMail /\ over = false /\ st_cfg z = c /\ st_user z = st_user s) ANewMail).
  - apply ext_log. intros s. now exists ONewMail.
  - exact I.
  - auto.
  - intros s e c over z _ (H1 & -> & -> & <- & Hu). exists (st_cfg z), (st_user s). split; [|now split]. eapply ca_new_mail; [exact H1|constructor].
  - intros. left. reflexivity.
  - intros l x r l' x' _ E. unfold op_new_mail in E.
    destruct (uf_poll (ac_new_mail ac) l (st_cfg (w_st x))) as [[q l1] c] eqn:Q.
    destruct q as [|[[]|]]; injection E as <- <- <-; (split; [reflexivity|]).
    + split; [exact I|]. split; [reflexivity|]. intros c' Hc. exists c'. split; [exact Hc|]. split; [|intros ua wa; apply same_refl].
      intros e over z (G1 & G2). split; [eapply ends_wait; [exact Q|exact G1]|exact G2].
    + left. exists ONewMail, c. split; [exact (allowed_new _ _ _ _ Q)|]. split; [split; [eapply ends_ready; exact Q|now repeat split]|]. repeat split. left. reflexivity.
    + right. split; [reflexivity|]. split; [reflexivity|]. intros Hs. apply (us_safe_new_mail _ Hs l (st_cfg (w_st x))). now rewrite Q.
Qed.
(** [J]: how what the filter may change can differ from what it was. *)
Definition changes {X} (f : ufuture (C * U * X) decision) (J : X -> X -> Prop) (mk : decision -> C -> U -> (X -> X) -> answer C U) : Prop :=
  (forall v, J v v)
  /\ (forall v0 l c u v r l' c' u' v', J v0 v -> uf_poll f l (c, u, v) = (r, l', (c', u', v')) -> J v0 v'
      /\ forall d, r = Ready (Some d) -> exists g, g v0 = v' /\ allowed (mk d c' u' g)).
Lemma R_filter (pre : stK -> Prop) {X} (f : ufuture (C * U * X) decision) (v : X) finish (fin : decision -> X -> U -> obs U) (F : stV -> outcome (decision * X) * stV) (mk : decision -> C -> U -> (X -> X) -> answer C U) J :
  (user_safe ac -> future_safe f) ->
  changes f J mk ->
  (forall s d c u g, pre s -> ends_with f (uf_start f) (st_cfg s, st_user s, v) d (c, u, g v) -> called ac (st_cfg s) (st_user s) [fin d (g v) u] [mk d c u g] false c u) ->
  (forall s, exists e, st_trace (snd (F s)) = st_trace s ++ [e]) ->
  (forall d v' s, st_cfg (finish d v' s) = st_cfg s /\ st_user (finish d v' s) = st_user s /\ snd (st_w (finish d v' s)) = snd (st_w s)
     /\ st_trace (finish d v' s) = st_trace s ++ [fin d v' (st_user s)] /\ writes [fin d v' (st_user s)] = []) ->
  (forall d c u g H s ua wa, F (enc s (exist _ (mk d c u g) H :: ua) wa) = (Ret (d, g v), enc (finish d (g v) (set_cu s c u)) ua wa)) ->
  Rw pre (a_filter f v finish) F.
Proof.
  intros Hs [J0 J1] HT He Hf HF.
  apply (R_answer pre (op_filter f finish) F
    (fun _ s y ua wa => let '(d, c, u, g) := y in (Ret (d, g v), enc (finish d (g v) (set_cu s c u)) ua wa))
    (fun l => J v (snd l))
    (fun _ y => let '(d, c, u, g) := y in allowed (mk d c u g))
    (fun l s e y over z => let '(d, c, u, g) := y in ends_with f (fst l) (st_cfg s, st_user s, snd l) d (c, u, g v) /\ e = fin d (g v) u /\ over = false /\ st_cfg z = c /\ st_user z = u)
    (fun y => let '(d, c, u, g) := y in mk d c u g)).
  - now apply ext_log.
  - apply J0.
  - intros [[[d c] u] g] H. exact H.
  - intros s e [[[d c] u] g] over z Hx (H1 & -> & -> & <- & <-). exists (st_cfg z), (st_user z). split; [|now split]. now apply HT.
  - intros [[[d c] u] g] H s ua wa. left. apply HF.
  - intros l x r l' x' Hl E. unfold op_filter in E.
    destruct (uf_poll f (fst l) (st_cfg (w_st x), st_user (w_st x), snd l)) as [[q l1] [[c u] v']] eqn:Q.
    destruct (J1 _ _ _ _ _ _ _ _ _ _ Hl Q) as [Hv Hd].
    destruct q as [|[d|]]; injection E as <- <- <-.
    + split; [reflexivity|]. split; [exact Hv|]. split; [reflexivity|]. intros [[[d c1] u1] g] Ha. exists (d, c1, u1, g). split; [exact Ha|]. split.
      { intros e over z (G1 & G2). split; [eapply ends_wait; [exact Q|exact G1]|exact G2]. }
      intros ua wa. left. reflexivity.
    + destruct (Hf d v' (set_cu (w_st x) c u)) as (H1 & H2 & H3 & H4 & H5). split; [exact H3|]. left. destruct (Hd d eq_refl) as (g & Hg & Ha).
      exists (fin d v' u), (d, c, u, g). split; [exact Ha|]. rewrite Hg. split; [split; [eapply ends_ready; exact Q|now repeat split]|]. split; [exact H4|]. split; [exact H5|]. intros ua wa. left. reflexivity.
    + split; [reflexivity|]. right. split; [reflexivity|]. split; [reflexivity|]. intros Hu. apply (Hs Hu (fst l) (st_cfg (w_st x), st_user (w_st x), snd l)). now rewrite Q.
Qed.
Hypothesis allowed_from : exists J, changes (ac_filter_from ac) J AFrom.
Hypothesis allowed_to : exists J, changes (ac_filter_to ac) J ATo.
Hypothesis allowed_data : exists J, changes (ac_filter_data ac) J AData.
Definition ret {A} (r : A * stV) : outcome A * stV := (Ret (fst r), snd r).
Lemma R_filter_from from : R (us_filter_from (any_user ac) from) (fun s => ret (call_filter_from cfg' from s)).
Proof.
  pose (F := fun u0 (s : stV) => let '(d, c, u, from') := cf_filter_from cfg' (st_cfg s) (st_user s) from in
      (@Ret (decision * option email) (d, from'), log (set_cu s c u) (OFrom u0 from d u from'))).
  apply (R_eq _ (fun s => F (st_user s) s)).
  { intros s. unfold ret, call_filter_from, F. destruct (cf_filter_from cfg' (st_cfg s) (st_user s) from) as [[[d c] u] from']. reflexivity. }
  apply (Rw_read _ (fun s : stV => st_user s) _ F); [reflexivity|]. intros u0.
  destruct allowed_from as [J HJ]. apply (R_filter _ _ _ _ (fun d from' u => OFrom u0 from d u from') _ AFrom J).
  - apply us_safe_filter_from.
  - exact HJ.
  - intros s d c u g <- H. econstructor; [exact H|reflexivity|constructor].
  - intros s. unfold F. destruct (cf_filter_from cfg' (st_cfg s) (st_user s) from) as [[[d c] u] from']. eexists. reflexivity.
  - intros d v' s. now repeat split.
  - reflexivity.
Qed.
Lemma R_filter_data m : R (us_filter_data (any_user ac) m) (fun s => ret (call_filter_data cfg' m s)).
Proof.
  pose (F := fun u0 (s : stV) => let '(d, c, u, m') := cf_filter_data cfg' (st_cfg s) (st_user s) m in
      (@Ret (decision * mail_meta) (d, m'), log (set_cu s c u) (OFilterData u0 m d u m'))).
  apply (R_eq _ (fun s => F (st_user s) s)).
  { intros s. unfold ret, call_filter_data, F. destruct (cf_filter_data cfg' (st_cfg s) (st_user s) m) as [[[d c] u] m']. reflexivity. }
  apply (Rw_read _ (fun s : stV => st_user s) _ F); [reflexivity|]. intros u0.
  destruct allowed_data as [J HJ]. apply (R_filter _ _ _ _ (fun d m' u => OFilterData u0 m d u m') _ AData J).
  - apply us_safe_filter_data.
  - exact HJ.
  - intros s d c u g <- H. econstructor; [exact H|reflexivity|constructor].
  - intros s. unfold F. destruct (cf_filter_data cfg' (st_cfg s) (st_user s) m) as [[[d c] u] m']. eexists. reflexivity.
  - intros d v' s. now repeat split.
  - reflexivity.
Qed.
Lemma R_filter_to m to : R (us_filter_to (any_user ac) m to) (fun s => ret (call_filter_to cfg' m to s)).
Proof.
  pose (F := fun u0 (s : stV) => let '(d, c, u, m', to') := cf_filter_to cfg' (st_cfg s) (st_user s) m to in
      (@Ret (decision * (mail_meta * email)) (d, (m', to')), log (set_mail (set_cu s c u) (Some m')) (OTo u0 m to d u m' to'))).
  apply (R_eq _ (fun s => (fun u0 s => andthen (F u0 s) (fun r s => (Ret (fst r, fst (snd r), snd (snd r)), s))) (st_user s) s)).
  { intros s. unfold ret, call_filter_to, F. destruct (cf_filter_to cfg' (st_cfg s) (st_user s) m to) as [[[[d c] u] m'] to']. reflexivity. }
  apply (Rw_read _ (fun s : stV => st_user s) _ (fun u0 s => andthen (F u0 s) (fun r s => (Ret (fst r, fst (snd r), snd (snd r)), s)))); [reflexivity|]. intros u0.
  apply (Rw_bind _ _ _ (F u0) (fun r s => (Ret (fst r, fst (snd r), snd (snd r)), s))); [|intros [d [m' to']]; apply R_done].
  destruct allowed_to as [J HJ]. apply (R_filter _ _ _ _ (fun d v u => OTo u0 m to d u (fst v) (snd v)) _ ATo J).
  - apply us_safe_filter_to.
  - exact HJ.
  - intros s d c u g <- H. destruct (g (m, to)) as [m' to'] eqn:Eg. econstructor; [exact H|exact Eg|constructor].
  - intros s. unfold F. destruct (cf_filter_to cfg' (st_cfg s) (st_user s) m to) as [[[[d c] u] m'] to']. eexists. reflexivity.
  - intros d v' s. now repeat split.
  - intros d c u g H s ua wa. unfold F, enc. cbn. destruct (g (m, to)) as [m' to']. reflexivity.
Qed.

(** ** The handler *)
Lemma uses_of {L} (h : hpoll L C U) : forall d data cs e d' data' cs', run_hpoll h d data cs = (e, d', data', cs') ->
  exists uses, (match e with EPanic => ~ poll_safe h | EFuel => False | _ => True end)
  /\ forall k : list bool -> handler C' U, run_handler (use_stream uses cs k) d data cs
     = match e with ECompletePanic => (Panic, data', cs', d') | _ => run_handler (k cs') d' data' cs' end.
Proof.
  induction h as [k IH|k IH|l c u|v c u|]; intros d data cs e d' data' cs' E; cbn [run_hpoll] in E.
  - pose proof (ds_poll_total d) as (_ & _ & T). destruct (ds_poll d) as [[x| |] d1] eqn:P; [| |destruct T].
    + destruct (IH _ _ _ _ _ _ _ _ E) as (uses & H1 & H2). exists (UPoll :: uses). split; [destruct e; auto; intros H; apply H1, H|].
      intros q. cbn [use_stream run_handler]. rewrite P. apply H2.
    + destruct (IH _ _ _ _ _ _ _ _ E) as (uses & H1 & H2). exists (UPoll :: uses). split; [destruct e; auto; intros H; apply H1, H|].
      intros q. cbn [use_stream run_handler]. rewrite P. apply H2.
  - destruct (ds_complete d) as [[| |] d1] eqn:P.
    + destruct (IH _ _ _ _ _ _ _ _ E) as (uses & H1 & H2). exists (UComplete :: uses). split; [destruct e; auto; intros H; apply H1, H|].
      intros q. cbn [use_stream run_handler]. rewrite P. apply H2.
    + destruct (IH _ _ _ _ _ _ _ _ E) as (uses & H1 & H2). exists (UComplete :: uses). split; [destruct e; auto; intros H; apply H1, H|].
      intros q. cbn [use_stream run_handler]. rewrite P. apply H2.
    + injection E as <- <- <- <-. exists [UComplete]. split; [exact I|]. intros q. cbn [use_stream run_handler]. now rewrite P.
  - injection E as <- <- <- <-. exists []. split; [exact I|reflexivity].
  - injection E as <- <- <- <-. exists []. split; [exact I|reflexivity].
  - injection E as <- <- <- <-. exists []. split; [intros []|reflexivity].
Qed.
Lemma use_run uses uses' (k : list bool -> handler C' U) : forall cs d data cs0,
  run_handler (use_stream (uses ++ uses') cs k) d data cs0 = run_handler (use_stream uses cs (fun cs => use_stream uses' cs k)) d data cs0.
Proof.
  induction uses as [|[| |] uses IH]; intros cs d data cs0; cbn [app use_stream run_handler]; [reflexivity|..].
  - destruct (ds_poll d) as [[x| |] d1]; [apply IH|apply IH|reflexivity].
  - destruct (ds_read_until _ _ _ d) as [[[items over]|] d1]; [apply IH|reflexivity].
  - destruct (ds_complete d) as [[| |] d1]; [apply IH|apply IH|reflexivity].
Qed.
Lemma use_ends uses : forall cs0 d0 (v : list bool -> decision) (c : C') (u : U) data cs o data' cs' d,
  run_handler (use_stream uses cs0 (fun cs => HDone (v cs) c u)) d0 data cs = (o, data', cs', d) -> o = Panic \/ exists r, o = Ret (r, c, u).
Proof.
  induction uses as [|[| |] uses IH]; intros cs0 d0 v c u data cs o data' cs' d E; cbn [use_stream run_handler] in E.
  - injection E as <- <- <- <-. right. now eexists.
  - pose proof (ds_poll_total d0) as (_ & _ & T). destruct (ds_poll d0) as [[x| |] d1]; [| |destruct T]; eapply IH; exact E.
  - destruct (ds_read_until_total (fun _ => false) (S (ds_size d0)) [] d0 ltac:(lia)) as (items & over & d1 & H & _). rewrite H in E. eapply IH; exact E.
  - destruct (ds_complete d0) as [[| |] d1]; [eapply IH; exact E..|]. injection E as <- <- <- <-. now left.
Qed.
Definition handled (u0 : U) (m : mail_meta) (s : stV) : outcome (decision * ds_state) * stV :=
  handler_end u0 m s (run_handler (cf_handle_mail cfg' (st_cfg s) (st_user s) m) (DS (st_reader s) CrLfPassed []) [] []).
Lemma ext_handled u0 m : ext (handled u0 m).
Proof.
  intros s. unfold handled. destruct (run_handler _ _ _ _) as [[[o data'] cs'] d]. destruct o as [[[v c] u]| | |]; cbn; try (eexists; reflexivity); exists []; symmetry; apply app_nil_r.
Qed.
Definition handling (u0 : U) (m : mail_meta) (t : ds_state) (buf data : bytes) (cs : list bool) (s : stK) (y : list use * (list bool -> decision) * C * U) (ua : list ans) (wa : list bool) :=
  let '(uses, v, c, u) := y in
  handler_end u0 m (enc s ua wa) (run_handler (use_stream uses cs (fun cs => HDone (v cs) (c, ua) u)) (DS (st_reader s) t buf) data cs).
Definition stop_of {L} (e : hend (C := C) (U := U) L) : option (stops L C U) :=
  match e with EWait h c u => Some (Waits h c u) | EReturn v c u => Some (Returns v c u) | ECompletePanic => Some CompletePanics | EPanic | EFuel => None end.
Lemma acts_of {L} (h : hpoll L C U) : forall d data cs e d' data' cs' q, run_hpoll h d data cs = (e, d', data', cs') -> stop_of e = Some q ->
  exists text cs1, data' = data ++ text /\ cs' = cs ++ cs1 /\ acts h d text cs1 q d'.
Proof.
  induction h as [k IH|k IH|l c u|v c u|]; intros d data cs e d' data' cs' q E Hq; cbn [run_hpoll] in E.
  - destruct (ds_poll d) as [[[b|]| |] d1] eqn:P.
    + destruct (IH _ _ _ _ _ _ _ _ _ E Hq) as (text & cs1 & -> & -> & H). exists (b ++ text), cs1. rewrite app_assoc. repeat split. eapply acts_item; eassumption.
    + destruct (IH _ _ _ _ _ _ _ _ _ E Hq) as (text & cs1 & -> & -> & H). exists text, cs1. rewrite app_nil_r. repeat split. eapply acts_end; eassumption.
    + destruct (IH _ _ _ _ _ _ _ _ _ E Hq) as (text & cs1 & -> & -> & H). exists text, cs1. repeat split. eapply acts_pending; eassumption.
    + injection E as <- <- <- <-. discriminate.
  - destruct (ds_complete d) as [[| |] d1] eqn:P.
    + destruct (IH _ _ _ _ _ _ _ _ _ E Hq) as (text & cs1 & -> & -> & H). exists text, (true :: cs1). rewrite <- app_assoc. repeat split. eapply acts_complete; eassumption.
    + destruct (IH _ _ _ _ _ _ _ _ _ E Hq) as (text & cs1 & -> & -> & H). exists text, (false :: cs1). rewrite <- app_assoc. repeat split. eapply acts_incomplete; eassumption.
    + injection E as <- <- <- <-. injection Hq as <-. exists [], []. rewrite !app_nil_r. repeat split. now constructor.
  - injection E as <- <- <- <-. injection Hq as <-. exists [], []. rewrite !app_nil_r. repeat split. constructor.
  - injection E as <- <- <- <-. injection Hq as <-. exists [], []. rewrite !app_nil_r. repeat split. constructor.
  - injection E as <- <- <- <-. discriminate.
Qed.
(** The handler, if [fits] says how it uses the stream and what it returns. *)
Definition poll_fits (m : mail_meta) (inv : hf_state (ac_handle_mail ac m) -> list bool -> Prop)
  (fits : hf_state (ac_handle_mail ac m) -> list use -> (list bool -> decision) -> Prop) : Prop :=
  forall h c0 u1 n d data cs e d' data' cs', inv h cs -> run_hpoll (hf_poll (ac_handle_mail ac m) h c0 u1 n) d data cs = (e, d', data', cs') ->
  match e with
  | EWait h' c u => inv h' cs' /\ forall uses v, fits h' uses v -> exists uses', fits h uses' v
       /\ forall k : list bool -> handler C' U, run_handler (use_stream uses' cs k) d data cs = run_handler (use_stream uses cs' k) d' data' cs'
  | EReturn r c u => exists uses v, fits h uses v /\ v cs' = r
       /\ forall k : list bool -> handler C' U, run_handler (use_stream uses cs k) d data cs = run_handler (k cs') d' data' cs'
  | ECompletePanic => exists uses v, fits h uses v
       /\ forall k : list bool -> handler C' U, run_handler (use_stream uses cs k) d data cs = (Panic, data', cs', d')
  | EPanic => ~ user_safe ac
  | EFuel => False
  end.
Lemma R_handle_fits m inv fits : poll_fits m inv fits -> inv (hf_start (ac_handle_mail ac m)) [] ->
  (forall uses v c u, fits (hf_start (ac_handle_mail ac m)) uses v -> allowed (AHandle uses v c u)) ->
  R (us_handle_mail (any_user ac) m) (fun s => handled (st_user s) m s).
Proof.
  intros Hp Hi Ha. apply (Rw_read _ (fun s : stV => st_user s) _ (fun u0 => handled u0 m)); [reflexivity|]. intros u0.
  apply (R_answer (fun s => st_user s = u0) (op_handle u0 m (ac_handle_mail ac m)) (handled u0 m)
    (fun l => let '(_, t, buf, data, cs) := l in handling u0 m t buf data cs)
    (fun l => let '(h, _, _, _, cs) := l in inv h cs)
    (fun l y => let '(h, _, _, _, _) := l in let '(uses, v, c, u) := y in fits h uses v)
    (fun l s e y over z => let '(h, t, buf, data, cs) := l in let '(uses, vd, c, u) := y in exists text cs1 r,
       handles (ac_handle_mail ac m) h (DS (st_reader s) t buf) (st_cfg s) (st_user s) text cs1 r
       /\ match r with
          | Some (v, c', u') => c' = c /\ u' = u /\ over = false /\ st_cfg z = c /\ st_user z = u /\ vd (cs ++ cs1) = v
              /\ e = OHandle u0 m (data ++ text) (cs ++ cs1) (Some (v, u))
          | None => over = true /\ e = OHandle u0 m (data ++ text) (cs ++ cs1) None
          end)
    (fun y => let '(uses, v, c, u) := y in AHandle uses v c u)).
  - apply ext_handled.
  - exact Hi.
  - intros [[[uses v] c] u] H. apply Ha, H.
  - intros s e [[[uses vd] c] u] over z <- (text & cs1 & r & H & Hr). change (ds_st (ds_new (prep_new (src_of [])))) with CrLfPassed in H.
    change (DS (st_reader s) CrLfPassed []) with (ds_new (st_reader s)) in H. destruct r as [[[v c'] u']|].
    + destruct Hr as (-> & -> & -> & <- & <- & Hv & ->). exists (st_cfg z), (st_user z). split; [|now split]. econstructor; [exact H|exact Hv|constructor].
    + destruct Hr as (-> & ->). exists (st_cfg s), (st_user s). split; [|discriminate]. eapply ca_panic, H.
  - intros [[[uses v] c] u] H s ua wa. unfold handled, handling. cbn [enc st_cfg st_user st_reader]. cbn.
    change (ds_st (ds_new (prep_new (src_of [])))) with CrLfPassed.
    destruct (run_handler (use_stream uses [] _) _ _ _) as [[[o data'] cs'] d] eqn:Er.
    destruct (use_ends _ _ _ _ _ _ _ _ _ _ _ _ Er) as [-> |[r0 ->]]; [right; now repeat split|left; reflexivity].
  - intros [[[[h t] buf] data] cs] x r l' x' Hl E. unfold op_handle in E. cbv zeta in E.
    destruct (run_hpoll (hf_poll (ac_handle_mail ac m) h (st_cfg (w_st x)) (st_user (w_st x)) _) (DS (st_reader (w_st x)) t buf) data cs) as [[[e d] data'] cs'] eqn:P.
    specialize (Hp _ _ _ _ _ _ _ _ _ _ _ Hl P). pose proof (acts_of _ _ _ _ _ _ _ _ (match e with EWait h c u => Waits h c u | EReturn v c u => Returns v c u | _ => CompletePanics end) P) as HA.
    destruct e as [h' c u|v c u| | |]; [| | | |destruct Hp]; injection E as <- <- <-; (split; [reflexivity|]).
    + destruct Hp as [Hi' Hp]. split; [exact Hi'|]. split; [reflexivity|]. intros [[[uses v] c'] u'] Hy. destruct (Hp _ _ Hy) as (uses' & Hf & Hr). exists (uses', v, c', u'). split; [exact Hf|].
      destruct d as [sd td bd]. cbn [ds_st ds_buf ds_source].
      change (st_reader (w_st (upd x (set_cu (set_reader (w_st x) sd) c u)))) with sd. split.
      * intros e over z (text & cs1 & r & Hh & He). destruct (HA eq_refl) as (text0 & cs0 & -> & -> & Hacts).
        exists (text0 ++ text), (cs0 ++ cs1), r. split; [eapply handles_wait; [exact Hacts|exact Hh]|].
        rewrite <- !app_assoc in He. exact He.
      * intros ua wa. unfold handling. rewrite Hr.
        destruct (run_handler (use_stream uses _ _) _ _ _) as [[[o1 data1] cs1] d1] eqn:Eh.
        destruct (use_ends _ _ _ _ _ _ _ _ _ _ _ _ Eh) as [-> |[r0 ->]]; [right; now repeat split|left; reflexivity].
    + left. destruct Hp as (uses & vd & Hf & Hv & Hr). exists (OHandle u0 m data' cs' (Some (v, u))), (uses, vd, c, u). split; [exact Hf|].
      split; [|split; [reflexivity|]; split; [reflexivity|]; intros ua wa; left; unfold handling; rewrite Hr, Hv; reflexivity].
      destruct (HA eq_refl) as (text0 & cs0 & -> & -> & Hacts). exists text0, cs0, (Some (v, c, u)). split; [eapply handles_return, Hacts|]. now repeat split.
    + right. now repeat split.
    + left. destruct Hp as (uses & v & Hf & Hr). exists (OHandle u0 m data' cs' None), (uses, v, st_cfg (w_st x), st_user (w_st x)). split; [exact Hf|].
      split; [|split; [reflexivity|]; split; [reflexivity|]; intros ua wa; right; unfold handling; rewrite Hr; now repeat split].
      destruct (HA eq_refl) as (text0 & cs0 & -> & -> & Hacts). exists text0, cs0, None. split; [eapply handles_panic, Hacts|]. now split.
Qed.
(** Any handler. *)
Lemma R_handle_any m : (forall uses v c u, allowed (AHandle uses v c u)) -> R (us_handle_mail (any_user ac) m) (fun s => handled (st_user s) m s).
Proof.
  intros Ha. apply (R_handle_fits m (fun _ _ => True) (fun _ _ _ => True)); [|exact I|auto].
  intros h c0 u1 n d data cs e d' data' cs' _ E. destruct (uses_of _ _ _ _ _ _ _ _ E) as (uses & H1 & H2).
  destruct e as [h' c u|v c u| | |].
  - split; [exact I|]. intros uses' v _. exists (uses ++ uses'). split; [exact I|]. intros k. rewrite use_run. apply H2.
  - exists uses, (fun _ => v). split; [exact I|]. split; [reflexivity|exact H2].
  - intros Hs. apply H1, (us_safe_handle_mail _ Hs).
  - exists uses, (fun _ => Accept). split; [exact I|exact H2].
  - exact H1.
Qed.
(** A handler that reads to the end and completes its stream. *)
Lemma next_fuel : forall f f' d, ds_size d < f -> f <= f' -> ds_next_loop f' d = ds_next_loop f d.
Proof.
  induction f as [|f IH]; intros f' d H L; [lia|]. destruct f' as [|f']; [lia|]. cbn [ds_next_loop].
  pose proof (ds_poll_total d) as (P1 & P2 & P3). destruct (ds_poll d) as [[x| |] d1]; cbn [snd] in *; try reflexivity.
  apply IH; lia.
Qed.
Lemma until_fuel stop : forall f f' acc d, ds_size d < f -> f <= f' -> ds_read_until f' stop acc d = ds_read_until f stop acc d.
Proof.
  induction f as [|f IH]; intros f' acc d H L; [lia|]. destruct f' as [|f']; [lia|]. cbn [ds_read_until]. destruct (stop acc); [reflexivity|].
  pose proof (ds_next_total d) as (P1 & P2 & P3). destruct (ds_next d) as [[[b|]|] d1]; cbn [snd] in *; try reflexivity. apply IH; lia.
Qed.
Definition drain (acc : list bytes) (d : datastream) := ds_read_until (S (ds_size d)) (fun _ => false) acc d.
Lemma drain_poll acc d r d1 : ds_poll d = (r, d1) ->
  drain acc d = match r with
    | DPending => drain acc d1
    | DReady (Some b) => drain (acc ++ [b]) d1
    | DReady None => (Some (acc, true), d1)
    | DFuel => (None, d1) end.
Proof.
  intros E. pose proof (ds_poll_total d) as (P1 & P2 & P3). rewrite E in P1, P2, P3. cbn [snd] in *. unfold drain at 1. cbn [ds_read_until].
  unfold ds_next. cbn [ds_next_loop]. rewrite E. destruct r as [[b|]| |]; try reflexivity.
  - apply until_fuel; lia.
  - unfold drain. cbn [ds_read_until]. unfold ds_next. rewrite (next_fuel (S (ds_size d1)) (ds_size d) d1) by lia.
    pose proof (ds_next_total d1) as (Q1 & Q2 & Q3). unfold ds_next in *. destruct (ds_next_loop (S (ds_size d1)) d1) as [[[b|]|] d2]; cbn [snd] in *; try reflexivity.
    apply until_fuel; lia.
Qed.
Lemma drain_acc : forall f acc d, ds_read_until f (fun _ => false) acc d =
  match ds_read_until f (fun _ => false) [] d with (Some (items, over), d') => (Some (acc ++ items, over), d') | (None, d') => (None, d') end.
Proof.
  induction f as [|f IH]; intros acc d; cbn [ds_read_until]; [reflexivity|].
  destruct (ds_next d) as [[[b|]|] d1]; [|now rewrite app_nil_r|reflexivity].
  rewrite (IH (acc ++ [b])), (IH [b]). destruct (ds_read_until f (fun _ => false) [] d1) as [[[items over]|] d2]; [now rewrite <- app_assoc|reflexivity].
Qed.
Lemma drain_run (k : handler C' U) d data cs r d1 : ds_poll d = (r, d1) ->
  run_handler (HRead (fun _ => false) (fun _ _ => k)) d data cs =
  match r with
  | DPending => run_handler (HRead (fun _ => false) (fun _ _ => k)) d1 data cs
  | DReady (Some b) => run_handler (HRead (fun _ => false) (fun _ _ => k)) d1 (data ++ b) cs
  | DReady None => run_handler k d1 data cs
  | DFuel => (NoFuel, data, cs, d1) end.
Proof.
  intros E. cbn [run_handler]. change (ds_read_until (S (ds_size d)) (fun _ => false) [] d) with (drain [] d). rewrite (drain_poll _ _ _ _ E).
  destruct r as [[b|]| |]; try reflexivity; [|cbn; now rewrite app_nil_r].
  unfold drain. cbn [app]. rewrite (drain_acc _ [b]).
  destruct (ds_read_until_total (fun _ => false) (S (ds_size d1)) [] d1 ltac:(lia)) as (items & over & d3 & -> & _).
  cbn [concat app]. now rewrite <- app_assoc.
Qed.
Definition still_to (st : stage) : list use := match st with Reading => [UDrain; UComplete] | Ended => [UComplete] | Closed _ => [] end.
Definition completed (st : stage) : list bool := match st with Closed ok => [ok] | _ => [] end.
Lemma order_run {L} (Q : bool -> decision -> Prop) (at_ : L -> stage) (h : hpoll L C U) : forall now d data cs e d' data' cs',
  in_order Q at_ now h -> cs = completed now -> run_hpoll h d data cs = (e, d', data', cs') ->
  match e with
  | EWait h' c u => cs' = completed (at_ h') /\ forall k : list bool -> handler C' U, run_handler (use_stream (still_to now) cs k) d data cs = run_handler (use_stream (still_to (at_ h')) cs' k) d' data' cs'
  | EReturn v c u => (exists ok, cs' = [ok] /\ Q ok v) /\ forall k : list bool -> handler C' U, run_handler (use_stream (still_to now) cs k) d data cs = run_handler (k cs') d' data' cs'
  | ECompletePanic => forall k : list bool -> handler C' U, run_handler (use_stream (still_to now) cs k) d data cs = (Panic, data', cs', d')
  | EPanic | EFuel => False
  end.
Proof.
  induction h as [k IH|k IH|l c u|v c u|]; intros now d data cs e d' data' cs' O Hc E; cbn [run_hpoll in_order] in O, E.
  - destruct O as (-> & O1 & O2 & O3). pose proof (ds_poll_total d) as (_ & _ & T). destruct (ds_poll d) as [[[b|]| |] d1] eqn:Ed; [| | |destruct T].
    + pose proof (IH _ _ _ _ _ _ _ _ _ (O2 b) Hc E) as H. cbn [still_to use_stream] in H |- *.
      destruct e as [h' c u|v c u| | |]; try exact H; [split; [apply H|]; intros q|split; [apply H|]; intros q|intros q]; rewrite (drain_run _ _ _ _ _ _ Ed); apply H.
    + rewrite app_nil_r in E. pose proof (IH _ _ _ _ _ _ _ _ _ O3 Hc E) as H. cbn [still_to use_stream] in H |- *.
      destruct e as [h' c u|v c u| | |]; try exact H; [split; [apply H|]; intros q|split; [apply H|]; intros q|intros q]; rewrite (drain_run _ _ _ _ _ _ Ed); apply H.
    + pose proof (IH _ _ _ _ _ _ _ _ _ O1 Hc E) as H. cbn [still_to use_stream] in H |- *.
      destruct e as [h' c u|v c u| | |]; try exact H; [split; [apply H|]; intros q|split; [apply H|]; intros q|intros q]; rewrite (drain_run _ _ _ _ _ _ Ed); apply H.
  - destruct O as (-> & O). cbn [completed] in Hc. subst cs. cbn [still_to use_stream run_handler app]. destruct (ds_complete d) as [[| |] d1].
    + exact (IH _ _ _ _ _ _ _ _ _ (O true) eq_refl E).
    + exact (IH _ _ _ _ _ _ _ _ _ (O false) eq_refl E).
    + injection E as <- <- <- <-. reflexivity.
  - injection E as <- <- <- <-. rewrite O. split; [exact Hc|reflexivity].
  - injection E as <- <- <- <-. destruct O as (ok & -> & O). split; [exists ok; split; [exact Hc|exact O]|]. reflexivity.
  - destruct O.
Qed.
Lemma R_handle_drains (Q : bool -> decision -> Prop) m : drains_future Q (ac_handle_mail ac m) -> (forall ok, Q ok Accept) ->
  (forall v c u, (forall ok, Q ok (v [ok])) -> allowed (AHandle [UDrain; UComplete] v c u)) -> R (us_handle_mail (any_user ac) m) (fun s => handled (st_user s) m s).
Proof.
  intros (at_ & H0 & H) HA Ha. apply (R_handle_fits m (fun h cs => cs = completed (at_ h)) (fun h uses v => uses = still_to (at_ h) /\ forall ok, Q ok (v [ok]))).
  - intros h c0 u1 n d data cs e d' data' cs' Hc E. pose proof (order_run Q at_ _ _ _ _ _ _ _ _ _ (H h c0 u1 n) Hc E) as Hr.
    destruct e as [h' c u|v c u| | |].
    + destruct Hr as [Hc' Hr]. split; [exact Hc'|]. intros uses v [-> Hv]. exists (still_to (at_ h)). split; [now split|exact Hr].
    + destruct Hr as [(ok & -> & Hv) Hr]. exists (still_to (at_ h)), (fun cs => match cs with [ok'] => if Bool.eqb ok ok' then v else Accept | _ => Accept end).
      split; [split; [reflexivity|]|split; [now rewrite Bool.eqb_reflx|exact Hr]]. intros ok'. destruct (Bool.eqb ok ok') eqn:Eo; [|apply HA]. apply Bool.eqb_prop in Eo. now subst ok'.
    + destruct Hr.
    + exists (still_to (at_ h)), (fun _ => Accept). split; [split; [reflexivity|exact HA]|exact Hr].
    + exact Hr.
  - now rewrite H0.
  - intros uses v c u [-> Hv]. rewrite H0. now apply Ha.
Qed.
Hypothesis R_handle_mail : forall m, R (us_handle_mail (any_user ac) m) (fun s => handled (st_user s) m s).

(** ** Commands *)
Lemma R_set_mail o : R (sync (fun s => (Ret tt, set_mail s o))) (fun s => (Ret tt, set_mail s o)).
Proof.
  apply R_sync; [now apply ext_same|]. intros s. cbn. now repeat split.
Qed.
Notation replies := (ac_replies ac).
Notation us := (any_user ac).
Notation say w := (fun s : stV => send_reply replay (w cfg' (st_cfg s)) s).
Lemma R_mail_cmd from : R (a_mail_cmd replies out us from) (handle_mail_cmd cfg' replay from).
Proof.
  pose (G := fun mail : option mail_meta => match mail with
    | Some _ => say (@cf_already_in_mail _ _)
    | None => fun s => andthen (Ret tt, snd (call_new_mail cfg' s)) (fun _ s => andthen (ret (call_filter_from cfg' from s)) (fun r =>
        match fst r with
        | Accept => fun s => andthen (say (@cf_mail_okay _ _) s) (fun _ s => (Ret tt, set_mail s (Some (Meta (snd r) []))))
        | Reject code msg => send_reply replay (code, msg) end)) end).
  apply (R_eq _ (fun s => G (st_mail s) s)).
  { intros s. unfold handle_mail_cmd, G. destruct (st_mail s); [reflexivity|]. unfold ret, call_filter_from. cbn [andthen snd call_new_mail].
    cbv zeta. destruct (cf_filter_from cfg' _ _ from) as [[[[|code msg] c] u] from']; reflexivity. }
  apply (R_read _ (fun s : stV => st_mail s) _ G); [reflexivity|]. intros [m|]; cbn [G]; [now apply (R_say _ (cf_already_in_mail cfg'))|].
  apply (R_bind _ _ _ _ R_new_mail). intros _. apply (R_bind _ _ _ _ (R_filter_from from)). intros [[|code msg] from']; cbn [fst snd]; [|apply R_send_reply].
  apply (R_bind _ _ (say (@cf_mail_okay _ _))); [now apply (R_say _ (cf_mail_okay cfg'))|]. intros _. apply R_set_mail.
Qed.
Lemma R_rcpt_cmd to : R (a_rcpt_cmd replies out us to) (handle_rcpt_cmd cfg' replay to).
Proof.
  pose (G := fun mail : option mail_meta => match mail with
    | Some m => fun s => andthen (ret (call_filter_to cfg' m to s)) (fun r =>
        match fst (fst r) with
        | Accept => fun s => andthen (Ret tt, set_mail s (Some (Meta (mm_from (snd (fst r))) (mm_to (snd (fst r)) ++ [snd r])))) (fun _ => say (@cf_rcpt_okay _ _))
        | Reject code msg => send_reply replay (code, msg) end)
    | None => say (@cf_rcpt_before_mail _ _) end).
  apply (R_eq _ (fun s => G (st_mail s) s)).
  { intros s. unfold handle_rcpt_cmd, G. destruct (st_mail s) as [m|]; [|reflexivity]. unfold ret, call_filter_to.
    destruct (cf_filter_to cfg' _ _ m to) as [[[[[|code msg] c] u] m'] to']; reflexivity. }
  apply (R_read _ (fun s : stV => st_mail s) _ G); [reflexivity|]. intros [m|]; cbn [G]; [|now apply (R_say _ (cf_rcpt_before_mail cfg'))].
  apply (R_bind _ _ _ _ (R_filter_to m to)). intros [[[|code msg] m'] to']; cbn [fst snd]; [|apply R_send_reply].
  apply (R_bind _ _ (fun s => (Ret tt, set_mail s _)) (fun _ => say (@cf_rcpt_okay _ _)) (R_set_mail _)). intros _. now apply (R_say _ (cf_rcpt_okay cfg')).
Qed.
Lemma R_receive_mail m : R (a_receive_mail replies out us m) (receive_mail cfg' replay m).
Proof.
  pose (G := fun r : decision * ds_state => match r with
    | (v, Completed) => match v with Accept => say (@cf_mail_accepted _ _) | Reject code msg => send_reply replay (code, msg) end
    | _ => fun s => (Panic, s) end).
  apply (R_eq _ (fun s => andthen (handled (st_user s) m s) G)).
  { intros s. unfold receive_mail, handled. change (DS (st_reader s) CrLfPassed []) with (ds_new (st_reader s)).
    destruct (run_handler _ (ds_new (st_reader s)) [] []) as [[[o data] cs] d]. destruct o as [[[v c] u]| | |]; cbn [handler_end andthen]; try reflexivity.
    unfold G, ds_was_completed. destruct (ds_st d); try reflexivity. destruct v; reflexivity. }
  apply (R_bind _ _ _ _ (R_handle_mail m)). intros [v []]; cbn [G]; try apply R_done.
  destruct v; [now apply (R_say _ (cf_mail_accepted cfg'))|apply R_send_reply].
Qed.
Lemma R_data_cmd : R (a_data_cmd replies out us) (handle_data_cmd cfg' replay).
Proof.
  pose (G := fun mail : option mail_meta => match mail with
    | Some m => fun s => andthen (Ret tt, set_mail s None) (fun _ =>
        match mm_to m with
        | [] => fun s => andthen (say (@cf_data_before_rcpt _ _) s) (fun _ s => (Ret tt, set_mail s (Some m)))
        | _ :: _ => fun s => andthen (ret (call_filter_data cfg' m s)) (fun r =>
            match fst r with
            | Accept => fun s => andthen (say (@cf_data_okay _ _) s) (fun _ => receive_mail cfg' replay (snd r))
            | Reject code msg => fun s => andthen (send_reply replay (code, msg) s) (fun _ s => (Ret tt, set_mail s (Some (snd r)))) end) end)
    | None => say (@cf_data_before_mail _ _) end).
  apply (R_eq _ (fun s => G (st_mail s) s)).
  { intros s. unfold handle_data_cmd, G. destruct (st_mail s) as [m|]; [|reflexivity]. cbn [andthen]. destruct (mm_to m); [reflexivity|]. unfold ret, call_filter_data.
    cbv zeta. destruct (cf_filter_data cfg' _ _ m) as [[[[|code msg] c] u] m']; reflexivity. }
  apply (R_read _ (fun s : stV => st_mail s) _ G); [reflexivity|]. intros [m|]; cbn [G]; [|now apply (R_say _ (cf_data_before_mail cfg'))].
  apply (R_bind _ _ (fun s => (Ret tt, set_mail s _)) _ (R_set_mail None)). intros _. destruct (mm_to m).
  - apply (R_bind _ _ (say (@cf_data_before_rcpt _ _))); [now apply (R_say _ (cf_data_before_rcpt cfg'))|]. intros _. apply R_set_mail.
  - apply (R_bind _ _ _ _ (R_filter_data m)). intros [[|code msg] m']; cbn [fst snd].
    + apply (R_bind _ _ (say (@cf_data_okay _ _))); [now apply (R_say _ (cf_data_okay cfg'))|]. intros _. apply R_receive_mail.
    + apply (R_bind _ _ (send_reply replay (code, msg))); [apply R_send_reply|]. intros _. apply R_set_mail.
Qed.
Lemma R_handle_line line : R (a_handle_line replies out us line) (handle_line cfg' replay line).
Proof.
  unfold a_handle_line. pose (Fl := match command_parse line with
    | POk (Mail from _) => handle_mail_cmd cfg' replay from
    | POk (Rcpt to _) => handle_rcpt_cmd cfg' replay to
    | POk Data => handle_data_cmd cfg' replay
    | POk _ => say (@cf_command_unimplemented _ _)
    | POutOfFuel => fun s => (NoFuel, s)
    | _ => say (@cf_command_unrecognized _ _) end).
  apply (R_eq _ Fl).
  { intros s. unfold Fl, handle_line. destruct (command_parse line) as [[]| | | |]; reflexivity. }
  unfold Fl. destruct (command_parse line) as [c|n| | |]; try (now apply (R_say _ (cf_command_unrecognized cfg'))); [|apply R_done].
  destruct c; try (now apply (R_say _ (cf_command_unimplemented cfg'))); [apply R_data_cmd|apply R_mail_cmd|apply R_rcpt_cmd].
Qed.
Lemma R_loop fuel : R (a_loop replies out us fuel) (interact_loop cfg' replay fuel).
Proof.
  induction fuel as [|fuel IH]; cbn [a_loop].
  - apply R_done.
  - pose (G := fun (r : option bytes) => match r with
      | Some l => fun s => andthen (handle_line cfg' replay l s) (fun _ s => interact_loop cfg' replay fuel s)
      | None => fun s => (Ret tt, s) end).
    apply (R_eq _ (fun s => andthen (line_of (next_crlf_line (st_reader s)) s) G)).
    { intros s. cbn [interact_loop]. unfold line_of. destruct (next_crlf_line (st_reader s)) as [[l| | |] p]; reflexivity. }
    apply (R_bind _ _ _ _ R_next_line). intros [l|]; cbn [G]; [|apply R_done].
    apply (R_bind _ _ _ _ (R_handle_line l)). intros _. exact IH.
Qed.
Lemma R_interact : R (interact_any ac out) (fun s => andthen (say (@cf_welcome_banner _ _) s) (fun _ s => interact_loop cfg' replay (S (prep_size (st_reader s))) s)).
Proof.
  apply (R_bind _ _ (say (@cf_welcome_banner _ _))); [now apply (R_say _ (cf_welcome_banner cfg'))|]. intros _.
  apply (R_read _ (fun s : stV => S (prep_size (st_reader s))) _ (fun n => interact_loop cfg' replay n)); [reflexivity|]. intros n. apply R_loop.
Qed.
End Any.
