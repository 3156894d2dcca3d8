(** Invariants of the queue about time and about the names in flight (C44, C49). *)
From Coq Require Import List Arith NArith Bool Lia.
Import ListNotations.
From Verif Require Import Queue SpecQueue QueueProofs.
Local Open Scope nat_scope.

(** The task holds the handle [i] of a mail in flight. *)
Definition holds (p : prog) (i : imail) : Prop :=
  match p with
  | PGetMail j _ | PSendDone j _ | PSendCancel j _ => j = i
  | PTransport _ k => k = after_transport i
  | _ => False
  end.
(** The task will cancel what is in flight under the name [tok], not before [b]. *)
Definition limit (t : N) (p : prog) (tok : nat) (b : N) : Prop :=
  match p with
  | PDelay d k => exists f, k = after_delay f /\ tok = fm_tok f /\ b = d
  | PCancelFound f _ => tok = fm_tok f /\ b = t
  | PSpawn (CFound st f) _ => tok = fm_tok f /\ b = (st + recovery_delay)%N
  | _ => False
  end.
Lemma after_transport_inj i j : after_transport i = after_transport j -> i = j.
Proof. intros H. apply (f_equal (fun k => k true)) in H. now injection H. Qed.
Lemma after_delay_inj i j : after_delay i = after_delay j -> i = j.
Proof. intros H. apply (f_equal (fun k => k true)) in H. now injection H. Qed.
Lemma holds_inj p i j : holds p i -> holds p j -> i = j.
Proof. destruct p; cbn; try contradiction; intros H1 H2; try congruence. apply after_transport_inj. congruence. Qed.
Lemma holds_attempting t i : holds (t_prog t) i -> attempting (im_since i) t.
Proof. unfold holds, attempting. destruct (t_prog t); cbn; try contradiction; try congruence. intros ->. now exists i. Qed.

(** ** What one operation does *)
Ltac point_cases Hp H :=
  inversion Hp; subst; clear Hp; cbn in H; inversion H; subst; clear H; cbn [accepted stor now fresh set_stor im_id im_tok im_since fm_id fm_tok] in *.

Lemma step_holds ms acc w p lab ev p' cs w' h : point ms acc h p -> pstep w p lab ev p' cs w' ->
  forall i, holds p' i -> holds p i
    \/ (im_tok i = fresh w /\ im_since i = now w /\ fresh w' = S (fresh w)
        /\ lookup (im_id i) (stor w) = Some Queued /\ stor w' = put (im_id i) (Inflight (fresh w)) (stor w)).
Proof.
  intros Hp H i Hi. point_cases Hp H; cbn in Hi; try contradiction.
  all: try (subst i; cbn; right; now repeat split).
  all: left; cbn; try congruence.
  all: apply after_transport_inj in Hi; congruence.
Qed.
Lemma put_other id j x s : id <> j -> lookup id (put j x s) = lookup id s.
Proof. intros H. rewrite lookup_put. destruct (Nat.eqb_spec j id); [congruence|reflexivity]. Qed.
Lemma del_other id j s : id <> j -> lookup id (del j s) = lookup id s.
Proof. intros H. rewrite lookup_del. destruct (Nat.eqb_spec j id); [congruence|reflexivity]. Qed.

(** A name in flight disappears only through its holder, or by recovery. *)
Lemma step_stor ms acc w p lab ev p' cs w' h : point ms acc h p -> pstep w p lab ev p' cs w' ->
  forall id tok, lookup id (stor w) = Some (Inflight tok) ->
    lookup id (stor w') = Some (Inflight tok)
    \/ (exists i, holds p i /\ im_id i = id /\ im_tok i = tok /\ forall j, ~ holds p' j)
    \/ (exists f, p = PCancelFound f after_found /\ fm_id f = id /\ fm_tok f = tok).
Proof.
  intros Hp H i t Hi. point_cases Hp H; auto.
  - (* start *) left. rewrite put_other; [assumption|]. congruence.
  - left. match goal with X : either _ _ _ |- _ => destruct X as [->| ->]; auto end. destruct (lookup id (stor w)) as [[|]|] eqn:E; auto.
    cbv iota. rewrite put_other; [assumption|]. congruence.
  - (* done *) destruct (Nat.eq_dec i id) as [->|Hn]; [|left; now rewrite del_other].
    right. left. eexists. split; [reflexivity|]. cbn. split; [reflexivity|]. split; [congruence|]. intros j Hj. exact Hj.
  - match goal with X : either _ _ _ |- _ => destruct X as [->| ->]; auto end. destruct (lookup id (stor w)) as [[|t1]|] eqn:E; auto.
    destruct (Nat.eqb_spec t1 tok) as [->|]; auto.
    destruct (Nat.eq_dec i id) as [->|Hn]; [|left; now rewrite del_other].
    right. left. eexists. split; [reflexivity|]. cbn. split; [reflexivity|]. split; [congruence|]. intros j Hj. exact Hj.
  - (* cancel *) destruct (Nat.eq_dec i id) as [->|Hn]; [|left; now rewrite put_other].
    right. left. eexists. split; [reflexivity|]. cbn. split; [reflexivity|]. split; [congruence|]. intros j Hj. exact Hj.
  - match goal with X : either _ _ _ |- _ => destruct X as [->| ->]; auto end. destruct (lookup id (stor w)) as [[|t1]|] eqn:E; auto.
    destruct (Nat.eqb_spec t1 tok) as [->|]; auto.
    destruct (Nat.eq_dec i id) as [->|Hn]; [|left; now rewrite put_other].
    right. left. eexists. split; [reflexivity|]. cbn. split; [reflexivity|]. split; [congruence|]. intros j Hj. exact Hj.
  - (* recover *) destruct (Nat.eq_dec i id) as [->|Hn]; [|left; now rewrite put_other].
    right. right. eexists. split; [reflexivity|]. cbn. split; [reflexivity|congruence].
  - match goal with X : either _ _ _ |- _ => destruct X as [->| ->]; auto end. destruct (lookup id (stor w)) as [[|t1]|] eqn:E; auto.
    destruct (Nat.eqb_spec t1 tok) as [->|]; auto.
    destruct (Nat.eq_dec i id) as [->|Hn]; [|left; now rewrite put_other].
    right. right. eexists. split; [reflexivity|]. cbn. split; [reflexivity|congruence].
Qed.
Lemma step_limit ms acc w p lab ev p' cs w' h : point ms acc h p -> pstep w p lab ev p' cs w' ->
  forall tok b, limit (now w) p' tok b -> (exists b', limit (now w) p tok b' /\ (b' <= b)%N)
    \/ (exists st l id, p = find_loop st l /\ lookup id (stor w) = Some (Inflight tok) /\ b = (st + recovery_delay)%N).
Proof.
  intros Hp H tok b Hb. point_cases Hp H; cbn in Hb; try contradiction.
  - destruct Hb as [-> ->]. left. exists t. split; [exists (Fm id tok0); auto|assumption].
  - destruct Hb as [-> ->]. right. exists t, l, id. auto.
Qed.
Lemma step_calls ms acc w p lab ev p' cs w' h : point ms acc h p -> pstep w p lab ev p' cs w' ->
  forall c, In c cs -> (forall i, ~ holds (body c) i)
    /\ forall tok b, limit (now w) (body c) tok b -> limit (now w) p tok b.
Proof.
  intros Hp H c Hc. point_cases Hp H; try (now destruct Hc); destruct Hc as [<-|[]]; cbn; (split; [auto|]); auto.
  intros tok0 b (f & E & -> & ->). apply after_delay_inj in E. subst f. auto.
Qed.
Definition toks_below (w : world) : Prop := forall id tok, lookup id (stor w) = Some (Inflight tok) -> tok < fresh w.
Lemma step_toks w p lab ev p' cs w' : toks_below w -> pstep w p lab ev p' cs w' -> toks_below w'.
Proof.
  intros Ht H.
  assert (Hput : forall id x n, (forall tok, x = Inflight tok -> tok < n) -> fresh w <= n ->
    forall i tok, lookup i (put id x (stor w)) = Some (Inflight tok) -> tok < n).
  { intros id x n Hx Hn i tok. rewrite lookup_put. destruct (id =? i); [intros [= ->]; auto|]. intros E. apply Ht in E. lia. }
  assert (Hdel : forall id i tok, lookup i (del id (stor w)) = Some (Inflight tok) -> tok < fresh w).
  { intros id i tok. rewrite lookup_del. destruct (id =? i); [discriminate|]. apply Ht. }
  assert (Hle : forall i tok, lookup i (stor w) = Some (Inflight tok) -> tok < S (fresh w)).
  { intros i tok E. apply Ht in E. lia. }
  unfold toks_below in *.
  inversion H; subst; clear H; cbn [stor fresh set_stor] in *; auto.
  - apply Hput; [intros t [= <-]; lia|lia].
  - match goal with X : either _ _ _ |- _ => destruct X as [->| ->]; auto end. destruct (lookup id (stor w)) as [[|]|]; auto. apply Hput; [intros t [= <-]; lia|lia].
  - apply Hdel.
  - match goal with X : either _ _ _ |- _ => destruct X as [->| ->]; auto end. destruct (lookup (im_id i) (stor w)) as [[|t]|]; auto. destruct (t =? im_tok i); auto. apply Hdel.
  - apply Hput; [discriminate|lia].
  - match goal with X : either _ _ _ |- _ => destruct X as [->| ->]; auto end. destruct (lookup (im_id i) (stor w)) as [[|t]|]; auto. destruct (t =? im_tok i); auto.
    apply Hput; [discriminate|lia].
  - apply Hput; [discriminate|lia].
  - match goal with X : either _ _ _ |- _ => destruct X as [->| ->]; auto end. destruct (lookup (fm_id f) (stor w)) as [[|t]|]; auto. destruct (t =? fm_tok f); auto.
    apply Hput; [discriminate|lia].
Qed.

(** ** The invariant *)
Section Quick.
Variables D L : N.
Hypothesis HDL : (D + L <= recovery_delay)%N.

Record current (s : sys) : Prop := Current {
  cu_inv : inv s;
  cu_toks : toks_below (sy_w s);
  cu_hold : forall t i, In t (sy_tasks s) -> holds (t_prog t) i ->
    lookup (im_id i) (stor (sy_w s)) = Some (Inflight (im_tok i)) /\ (im_since i <= now (sy_w s))%N;
  cu_one : forall t1 t2 i1 i2, In t1 (sy_tasks s) -> In t2 (sy_tasks s) -> holds (t_prog t1) i1 -> holds (t_prog t2) i2 ->
    im_tok i1 = im_tok i2 -> t_id t1 = t_id t2;
  cu_limit : forall t tok b, In t (sy_tasks s) -> limit (now (sy_w s)) (t_prog t) tok b ->
    tok < fresh (sy_w s) /\
    forall t' i, In t' (sy_tasks s) -> holds (t_prog t') i -> im_tok i = tok -> (im_since i + D <= b)%N
}.

Lemma same_id_same_task s t1 t2 : inv s -> In t1 (sy_tasks s) -> In t2 (sy_tasks s) -> t_id t1 = t_id t2 -> t1 = t2.
Proof.
  intros I H1 H2 E. pose proof (iv_nodup _ I) as N. clear I. induction (sy_tasks s) as [|t ts IH]; [destruct H1|].
  cbn in N. inversion N; subst. destruct H1 as [->|H1], H2 as [->|H2]; auto.
  - exfalso. apply H3. rewrite E. now apply in_map.
  - exfalso. apply H3. rewrite <- E. now apply in_map.
Qed.

Lemma current_step s act s' : current s -> quick D L s -> sstep s act s' -> current s'.
Proof.
  intros [I T Ho On Li] [Q1 Q2] H. pose proof (inv_step _ _ _ I H) as I'.
  inversion H; subst; cbn [sy_w sy_tasks sy_next sy_mails sy_trace] in *.
  - (* a task *)
    set (t0 := Task n inst p). set (t0' := Task n inst p').
    assert (Hin : In t0 (a ++ t0 :: b)) by apply in_elt.
    assert (Hp : point ms (accepted w) (history n tr) p).
    { pose proof (iv_points _ I) as F. cbn in F. rewrite Forall_forall in F. apply (F t0 Hin). }
    assert (Hnow : now w' = now w) by (inversion H0; reflexivity).
    pose proof (step_holds _ _ _ _ _ _ _ _ _ _ Hp H0) as SH.
    pose proof (step_stor _ _ _ _ _ _ _ _ _ _ Hp H0) as SS.
    pose proof (step_limit _ _ _ _ _ _ _ _ _ _ Hp H0) as SL.
    pose proof (step_calls _ _ _ _ _ _ _ _ _ _ Hp H0) as SC.
    assert (Hfr : fresh w <= fresh w') by (inversion H0; cbn; lia).
    (* tasks of the new state *)
    assert (Hcase : forall t, In t (a ++ t0' :: b ++ new_tasks nx inst cs) ->
      (In t (a ++ t0 :: b) /\ t_id t <> n) \/ t = t0' \/ exists c, In c cs /\ t_prog t = body c /\ nx <= t_id t).
    { intros t Ht. rewrite in_mid, in_app_iff in Ht. pose proof (iv_nodup _ I) as N. cbn in N.
      rewrite map_app in N. cbn [map t_id] in N. apply nodup_mid in N. destruct N as [Na Nb].
      destruct Ht as [Ht|[->|[Ht|Ht]]]; auto.
      - left. split; [apply in_mid; auto|]. intros E. apply Na. rewrite <- E. now apply in_map.
      - left. split; [apply in_mid; auto|]. intros E. apply Nb. rewrite <- E. now apply in_map.
      - right. right. apply new_tasks_in in Ht. destruct Ht as (Hb & c & Hc & E & _). exists c. repeat split; auto. lia. }
    (* other holders keep their names *)
    assert (Hkeep : forall t i, In t (a ++ t0 :: b) -> t_id t <> n -> holds (t_prog t) i ->
      lookup (im_id i) (stor w') = Some (Inflight (im_tok i))).
    { intros t i Ht Hn Hi. destruct (Ho t i Ht Hi) as [Hl Hs].
      destruct (SS _ _ Hl) as [E|[(j & Hj & E1 & E2 & _)|(f & -> & E1 & E2)]]; [exact E| |].
      - exfalso. apply Hn. symmetry. change n with (t_id t0). apply (On t0 t j i); auto.
      - exfalso. destruct (Li t0 (fm_tok f) (now w) Hin) as [_ Hb]; [cbn; auto|].
        specialize (Hb t i Ht Hi (eq_sym E2)). specialize (Q1 t _ Ht (holds_attempting _ _ Hi)). lia. }
    assert (Hown : forall i, holds p' i -> holds p i -> lookup (im_id i) (stor w') = Some (Inflight (im_tok i))).
    { intros i Hi' Hi. destruct (Ho t0 i Hin Hi) as [Hl _].
      destruct (SS _ _ Hl) as [E|[(j & Hj & E1 & E2 & Hno)|(f & -> & E1 & E2)]]; [exact E| |].
      - exfalso. exact (Hno _ Hi').
      - destruct Hi. }
    assert (Htok : forall t i, In t (a ++ t0 :: b) -> holds (t_prog t) i -> im_tok i < fresh w).
    { intros t i Ht Hi. destruct (Ho t i Ht Hi) as [Hl _]. exact (T _ _ Hl). }
    (* holders of the new state *)
    assert (Hhold : forall t i, In t (a ++ t0' :: b ++ new_tasks nx inst cs) -> holds (t_prog t) i ->
      (exists t1, In t1 (a ++ t0 :: b) /\ t_id t1 = t_id t /\ holds (t_prog t1) i)
      \/ (t = t0' /\ im_tok i = fresh w /\ im_since i = now w /\ fresh w' = S (fresh w)
          /\ stor w' = put (im_id i) (Inflight (fresh w)) (stor w))).
    { intros t i Ht Hi. destruct (Hcase t Ht) as [[H1 H2]|[->|(c & Hc & E & _)]].
      - left. exists t. auto.
      - destruct (SH _ Hi) as [Hi'|(E1 & E2 & E3 & E4 & E5)]; [left; exists t0; auto|right; auto].
      - exfalso. destruct (SC c Hc) as [Hno _]. rewrite E in Hi. exact (Hno _ Hi). }
    constructor; cbn [sy_w sy_tasks sy_next sy_mails sy_trace].
    + exact I'.
    + eapply step_toks; eauto.
    + intros t i Ht Hi. rewrite Hnow. destruct (Hcase t Ht) as [[H1 H2]|[->|(c & Hc & E & _)]].
      * split; [now apply (Hkeep t)|]. now apply (Ho t).
      * destruct (SH _ Hi) as [Hi'|(E1 & E2 & E3 & E4 & E5)].
        -- split; [now apply Hown|]. now apply (Ho t0).
        -- rewrite E5, lookup_put, Nat.eqb_refl, E1, E2. split; [reflexivity|lia].
      * exfalso. destruct (SC c Hc) as [Hno _]. rewrite E in Hi. exact (Hno _ Hi).
    + intros t1 t2 i1 i2 H1 H2 K1 K2 E.
      destruct (Hhold _ _ H1 K1) as [(u1 & G1 & G2 & G3)|(-> & G1 & G2 & _)],
               (Hhold _ _ H2 K2) as [(u2 & F1 & F2 & F3)|(-> & F1 & F2 & _)].
      * rewrite <- G2, <- F2. now apply (On u1 u2 i1 i2).
      * exfalso. apply (Htok u1 i1 G1) in G3. lia.
      * exfalso. apply (Htok u2 i2 F1) in F3. lia.
      * reflexivity.
    + intros t tok bd Ht Hb. rewrite Hnow in Hb.
      assert (Hl : (exists t1 b', In t1 (a ++ t0 :: b) /\ limit (now w) (t_prog t1) tok b' /\ (b' <= bd)%N)
        \/ (exists st l id, p = find_loop st l /\ lookup id (stor w) = Some (Inflight tok) /\ bd = (st + recovery_delay)%N)).
      { destruct (Hcase t Ht) as [[H1 H2]|[->|(c & Hc & E & _)]].
        - left. exists t, bd. repeat split; auto. lia.
        - destruct (SL _ _ Hb) as [(b' & Hb' & Hle)|Hf]; [left; exists t0, b'; auto|right; exact Hf].
        - left. exists t0, bd. destruct (SC c Hc) as [_ Hlc]. rewrite E in Hb. repeat split; auto; lia. }
      destruct Hl as [(t1 & b' & H1 & H2 & H3)|(st & l & id & -> & H2 & ->)].
      * destruct (Li t1 tok b' H1 H2) as [Hlt Hall]. split; [lia|].
        intros t' i Ht' Hi Ei. destruct (Hhold _ _ Ht' Hi) as [(u1 & G1 & G2 & G3)|(-> & G1 & _)].
        -- specialize (Hall u1 i G1 G3 Ei). lia.
        -- exfalso. lia.
      * split; [apply T in H2; lia|].
        intros t' i Ht' Hi Ei. destruct (Hhold _ _ Ht' Hi) as [(u1 & G1 & G2 & G3)|(-> & G1 & _)].
        -- destruct (Ho u1 i G1 G3) as [_ Hs]. specialize (Q2 t0 st Hin (ex_intro _ l eq_refl)). lia.
        -- exfalso. apply T in H2. lia.
  - (* enqueue *)
    assert (Hsame : forall i x, lookup i (stor w) = Some x -> lookup i (put id Queued (stor w)) = Some x).
    { intros i x E. rewrite put_other; [exact E|]. congruence. }
    constructor; cbn [sy_w sy_tasks sy_next sy_mails sy_trace set_stor stor now fresh]; auto.
    + intros i tok. cbn [stor set_stor fresh]. rewrite lookup_put. destruct (id =? i); [discriminate|]. apply T.
    + intros t i Ht Hi. destruct (Ho t i Ht Hi). auto.
  - (* time *)
    constructor; cbn [sy_w sy_tasks sy_next sy_mails sy_trace set_stor stor now fresh]; auto.
    + intros t i Ht Hi. destruct (Ho t i Ht Hi). split; [assumption|lia].
    + intros t tok b Ht Hb.
      assert (exists b', limit (now w) (t_prog t) tok b' /\ (b' <= b)%N) as (b' & Hb' & Hle).
      { destruct (t_prog t) as [| | | | | |d k|f k| | | | | |c k|]; cbn in Hb; try (now destruct Hb).
        - destruct Hb as (f & -> & -> & ->). exists d. cbn. split; [eauto|lia].
        - destruct Hb as [-> ->]. exists (now w). cbn. split; [auto|lia].
        - exists b. split; [exact Hb|lia]. }
      destruct (Li t tok b' Ht Hb') as [H1 H2]. split; [exact H1|]. intros t' i Ht' Hi E. specialize (H2 t' i Ht' Hi E). lia.
  - (* boot *)
    assert (Hc : forall t, In t (ts ++ [Task nx inst run]) -> (forall i, holds (t_prog t) i -> In t ts)
      /\ (forall tok b, limit (now w) (t_prog t) tok b -> In t ts)).
    { intros t Ht. apply in_app_or in Ht. destruct Ht as [Ht|[<-|[]]]; [auto|]. cbn. split; intros; contradiction. }
    constructor; cbn [sy_w sy_tasks sy_next sy_mails sy_trace set_stor stor now fresh]; auto.
    + intros t i Ht Hi. apply (Ho t i); [|exact Hi]. now apply (proj1 (Hc t Ht) i).
    + intros t1 t2 i1 i2 H1 H2 K1 K2. apply (On t1 t2 i1 i2); auto; [now apply (proj1 (Hc t1 H1) i1)|now apply (proj1 (Hc t2 H2) i2)].
    + intros t tok b Ht Hb. destruct (Li t tok b) as [G1 G2]; [now apply (proj2 (Hc t Ht) tok b)|exact Hb|].
      split; [exact G1|]. intros t' i Ht' Hi. apply (G2 t'); [now apply (proj1 (Hc t' Ht') i)|exact Hi].
  - (* crash *)
    assert (Hc : forall t, In t (filter (fun t => negb (t_inst t =? inst)) ts) -> In t ts).
    { intros t Ht. apply filter_In in Ht. now destruct Ht. }
    constructor; cbn [sy_w sy_tasks sy_next sy_mails sy_trace set_stor stor now fresh]; auto.
    + intros t i Ht Hi. apply (Ho t i); auto.
    + intros t1 t2 i1 i2 H1 H2. apply (On t1 t2); auto.
    + intros t tok b Ht Hb. destruct (Li t tok b (Hc _ Ht) Hb) as [G1 G2]. split; [exact G1|]. intros t' i Ht'. apply (G2 t'). auto.
Qed.

Lemma current0 t0 : current (sys0 t0).
Proof.
  constructor.
  - apply inv0.
  - intros i tok H. discriminate.
  - intros t i [].
  - intros t1 t2 i1 i2 [].
  - intros t tok b [].
Qed.
Lemma reach_state A P s0 s : reach A P s0 s -> P s.
Proof. now intros []. Qed.
Lemma reach_current A t0 s : reach A (quick D L) (sys0 t0) s -> current s.
Proof.
  induction 1; [apply current0|]. eapply current_step; eauto. eapply reach_state; eauto.
Qed.

Lemma sending_holds s t id : inv s -> In t (sy_tasks s) -> sending id t -> exists i, holds (t_prog t) i /\ im_id i = id.
Proof.
  intros I Ht (k & E). pose proof (iv_points _ I) as F. rewrite Forall_forall in F. specialize (F t Ht). rewrite E in *.
  inversion F; subst. eexists. split; [reflexivity|reflexivity].
Qed.
Lemma one_sender s t1 t2 id : current s -> In t1 (sy_tasks s) -> In t2 (sy_tasks s) ->
  sending id t1 -> sending id t2 -> t1 = t2.
Proof.
  intros C H1 H2 S1 S2. pose proof (cu_inv _ C) as I.
  destruct (sending_holds _ _ _ I H1 S1) as (i1 & G1 & E1). destruct (sending_holds _ _ _ I H2 S2) as (i2 & G2 & E2).
  apply (same_id_same_task s); auto. apply (cu_one _ C t1 t2 i1 i2); auto.
  destruct (cu_hold _ C t1 i1 H1 G1) as [L1 _]. destruct (cu_hold _ C t2 i2 H2 G2) as [L2 _]. congruence.
Qed.

(** ** Exactly once (C49) *)
Lemma step_none w p lab ev p' cs w' id : pstep w p lab ev p' cs w' ->
  lookup id (stor w) = None -> lookup id (stor w') = None.
Proof.
  intros H E.
  assert (Hput : forall j x, lookup j (stor w) <> None -> lookup id (put j x (stor w)) = None).
  { intros j x Hj. rewrite put_other; [exact E|]. congruence. }
  assert (Hdel : forall j, lookup id (del j (stor w)) = None).
  { intros j. rewrite lookup_del. now destruct (j =? id). }
  inversion H; subst; clear H; cbn [stor set_stor]; auto.
  - apply Hput. congruence.
  - match goal with X : either _ _ _ |- _ => destruct X as [->| ->]; auto end. destruct (lookup id0 (stor w)) as [[|]|] eqn:El; auto. apply Hput. congruence.
  - match goal with X : either _ _ _ |- _ => destruct X as [->| ->]; auto end. destruct (lookup (im_id i) (stor w)) as [[|t]|]; auto. destruct (t =? im_tok i); auto.
  - apply Hput. congruence.
  - match goal with X : either _ _ _ |- _ => destruct X as [->| ->]; auto end. destruct (lookup (im_id i) (stor w)) as [[|t]|] eqn:El; auto. destruct (t =? im_tok i); auto. apply Hput. congruence.
  - apply Hput. congruence.
  - match goal with X : either _ _ _ |- _ => destruct X as [->| ->]; auto end. destruct (lookup (fm_id f) (stor w)) as [[|t]|] eqn:El; auto. destruct (t =? fm_tok f); auto. apply Hput. congruence.
Qed.

Definition over (s : sys) (id : nat) : Prop :=
  lookup id (stor (sy_w s)) = None
  \/ exists t i, In t (sy_tasks s) /\ t_prog t = PSendDone i PEnd /\ im_id i = id.
Record once (s : sys) : Prop := Once {
  on_nodup : NoDup (accepted (sy_w s));
  on_over : forall id, In id (accepted (sy_w s)) -> over s id
}.
Lemma once_step s act s' : once s -> current s -> quick D L s -> no_failure act -> sstep s act s' -> once s'.
Proof.
  intros [N O] C Q A H. pose proof (cu_inv _ C) as I.
  inversion H; subst; cbn [sy_w sy_tasks sy_next sy_mails sy_trace no_failure] in *; try contradiction.
  - (* a task *)
    destruct lab; [|contradiction].
    set (t0 := Task n inst p). assert (Hin : In t0 (a ++ t0 :: b)) by apply in_elt.
    assert (Hp : point ms (accepted w) (history n tr) p).
    { pose proof (iv_points _ I) as F. cbn in F. rewrite Forall_forall in F. apply (F t0 Hin). }
    (* a mail that is over stays so *)
    assert (Hover : forall id, In id (accepted w) -> lookup id (stor w') = None
      \/ exists t i, In t (a ++ Task n inst p' :: b ++ new_tasks nx inst cs) /\ t_prog t = PSendDone i PEnd /\ im_id i = id).
    { intros id Hid. destruct (O id Hid) as [Hl|(t & i & Ht & Ep & Ei)]; cbn [sy_w sy_tasks] in *.
      - left. eapply step_none; eauto.
      - apply in_mid in Ht. destruct Ht as [Ht|[->|Ht]].
        + right. exists t, i. repeat split; auto. apply in_mid. auto.
        + cbn in Ep. subst p.
          destruct (cu_hold _ C t0 i Hin eq_refl) as [Hl _]. cbn [sy_w] in Hl.
          inversion H0; subst; cbn [stor set_stor]; [|contradiction].
          left. rewrite lookup_del, Nat.eqb_refl. reflexivity.
        + right. exists t, i. repeat split; auto. apply in_mid. right. right. apply in_or_app. now left. }
    assert (Hacc : accepted w' = accepted w \/ exists id k, p = PTransport id k /\ accepted w' = accepted w ++ [id] /\ p' = k true).
    { inversion H0; subst; cbn; eauto 8. }
    destruct Hacc as [E|(id & k & -> & E & ->)].
    + constructor; unfold over; cbn [sy_w sy_tasks]; rewrite E; auto.
    + destruct (sending_holds _ t0 id I Hin (ex_intro _ k eq_refl)) as (i & Hi & Ei).
      destruct (cu_hold _ C t0 i Hin Hi) as [Hl _]. cbn [sy_w] in Hl.
      assert (Hnew : ~ In id (accepted w)).
      { intros Hid. destruct (O id Hid) as [Hx|(t & j & Ht & Ep & Ej)]; cbn [sy_w sy_tasks] in *; [congruence|].
        destruct (cu_hold _ C t j Ht) as [Hl' _]; [rewrite Ep; reflexivity|]. cbn [sy_w] in Hl'.
        assert (Et : t_id t0 = t_id t).
        { apply (cu_one _ C t0 t i j); auto; [rewrite Ep; reflexivity|congruence]. }
        apply (same_id_same_task _ _ _ I Hin Ht) in Et. subst t. discriminate Ep. }
      constructor; unfold over; cbn [sy_w sy_tasks]; rewrite E.
      * apply NoDup_app_intro; auto; [repeat constructor; intros []|]. intros x Hx [<-|[]]. contradiction.
      * intros x Hx. apply in_app_or in Hx. destruct Hx as [Hx|[<-|[]]]; [auto|].
        right. cbn in Hi. subst k. exists (Task n inst (PSendDone i PEnd)), i. repeat split; auto. apply in_mid. auto.
  - (* enqueue *)
    constructor; unfold over; cbn [sy_w sy_tasks set_stor stor accepted]; auto.
    intros i Hi. pose proof (iv_accepted _ I i Hi) as Hm. cbn in Hm.
    destruct (O i Hi) as [Hl|Hx]; [left|right; exact Hx]. rewrite put_other; [exact Hl|]. congruence.
  - constructor; unfold over; cbn [sy_w sy_tasks stor accepted]; auto.
  - constructor; unfold over; cbn [sy_w sy_tasks stor accepted]; auto.
    intros i Hi. destruct (O i Hi) as [Hl|(t & j & Ht & Hx)]; [now left|right]. exists t, j. split; [apply in_or_app; now left|exact Hx].
Qed.
Lemma reach_once t0 s : reach no_failure (quick D L) (sys0 t0) s -> once s.
Proof.
  intros R. induction R.
  - constructor; cbn; [constructor|intros i []].
  - eapply once_step; eauto; [eapply reach_current; eauto|eapply reach_state; eauto].
Qed.
End Quick.
