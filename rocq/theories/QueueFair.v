(** Under fairness, every mail known at startup is delivered at last (C54). *)
From Coq Require Import List Arith NArith Bool Lia.
Import ListNotations.
From Verif Require Import Queue SpecQueue QueueProofs QueueTime QueueLive.
Local Open Scope nat_scope.

(** ** One step *)
(** Task [t] does its operation between [s] and [s']. *)
Definition moved (id : nat) (s s' : sys) (t : task) : Prop :=
  exists lab ev p' cs, pstep (sy_w s) (t_prog t) lab ev p' cs (sy_w s')
    /\ (lab = Failure -> exists i, about ev = Some i /\ i <> id)
    /\ In (Task (t_id t) (t_inst t) p') (sy_tasks s')
    /\ (forall c, In c cs -> exists t', In t' (sy_tasks s') /\ t_prog t' = body c).
Lemma in_new c nx inst cs : In c cs -> exists t, In t (new_tasks nx inst cs) /\ t_prog t = body c.
Proof.
  intros Hc. assert (exists m, In (m, c) (number nx cs)) as (m & Hmc).
  { revert nx. induction cs as [|c' cs IH]; intros nx; [destruct Hc|].
    destruct Hc as [->|Hc]; [exists nx; now left|]. destruct (IH Hc (S nx)) as (m & Hx). exists m. now right. }
  exists (Task m inst (body c)). split; [|reflexivity]. unfold new_tasks. apply in_map_iff. exists (m, c). auto.
Qed.
Lemma task_step id s act s' t : inv s -> spares id s act s' -> sstep s act s' -> In t (sy_tasks s) ->
  moved id s s' t \/ (In t (sy_tasks s') /\ forall ev, sy_trace s' <> sy_trace s ++ [(t_id t, ev)]).
Proof.
  intros I A H Ht. inversion H; subst; cbn [sy_w sy_tasks sy_trace spares calm] in *; try contradiction.
  - assert (Af : lab = Failure -> exists i, about ev = Some i /\ i <> id).
    { intros ->. destruct A as (m & ev' & i & E & Ea & Hn). apply app_inv_head in E. injection E as _ <-. now exists i. }
    apply in_mid in Ht.
    assert (Hne : t_id t <> n -> forall ev0, tr ++ [(n, ev)] <> tr ++ [(t_id t, ev0)]).
    { intros K ev0 E. apply app_inv_head in E. congruence. }
    assert (Hid : In t a \/ In t b -> t_id t <> n).
    { pose proof (iv_nodup _ I) as K. cbn [sy_tasks] in K. rewrite map_app in K. cbn [map t_id] in K.
      apply nodup_mid in K. destruct K as [K1 K2]. intros [X|X] <-; [apply K1|apply K2]; now apply in_map. }
    destruct Ht as [Ht|[->|Ht]].
    + right. split; [apply in_mid; auto|auto].
    + left. exists lab, ev, p', cs. split; [exact H0|]. split; [exact Af|]. cbn [t_id t_inst]. split; [apply in_elt|].
      intros c Hc. destruct (in_new c nx inst cs Hc) as (t' & Ht' & E). exists t'. split; [|exact E].
      apply in_mid. right. right. apply in_or_app. auto.
    + right. split; [apply in_mid; right; right; apply in_or_app; auto|auto].
  - right. split; [exact Ht|]. intros ev E. apply (f_equal (@length _)) in E. rewrite app_length in E. cbn in E. lia.
  - right. split; [exact Ht|]. intros ev E. apply (f_equal (@length _)) in E. rewrite app_length in E. cbn in E. lia.
Qed.

(** The tasks of the startup scan. *)
Definition scanning (p : prog) : bool :=
  match p with
  | PNow _ | PListQueue _ | PQueueNext _ _ | PFindInflight _ | PFindNext _ _ => true
  | PGoto (CQueueLoop _ _) | PGoto (CFindLoop _ _) => true
  | PSpawn _ (PGoto _) => true
  | _ => false
  end.
Lemma step_scanning ms acc h w p ev p' cs w' : point ms acc h p -> pstep w p Normal ev p' cs w' ->
  (scanning p = false -> scanning p' = false) /\ (forall c, In c cs -> scanning (body c) = false)
  /\ (scanning p = false -> forall c, In c cs -> exists q, c = CSend q).
Proof.
  intros Hp H. inversion Hp; subst; clear Hp; cbn in H; inversion H; subst;
    (split; [intros X; try discriminate X; reflexivity|]); (split; [intros c Hc|intros X; try discriminate X; intros c Hc]).
  all: cbn in Hc; destruct Hc as [<-|[]] || destruct Hc; try reflexivity; eauto.
Qed.
Lemma failure_ends w p ev p' cs w' i : pstep w p Failure ev p' cs w' -> about ev = Some i ->
  (match ev with ESend _ _ => False | _ => True end) /\ cs = [].
Proof. intros H E. inversion H; subst; cbn in E; try discriminate E; split; auto. Qed.
Lemma failure_scanning ms acc h w p ev p' cs w' i : point ms acc h p -> pstep w p Failure ev p' cs w' -> about ev = Some i ->
  scanning p = false /\ scanning p' = false.
Proof.
  intros Hp H E. inversion Hp; subst; clear Hp; cbn in H; inversion H; subst; cbn in E; try discriminate E; auto.
Qed.
Lemma old_scanning id s act s' t : inv s -> spares id s act s' -> sstep s act s' -> In t (sy_tasks s') -> scanning (t_prog t) = true ->
  exists t0, In t0 (sy_tasks s) /\ t_id t0 = t_id t /\ scanning (t_prog t0) = true.
Proof.
  intros I A H Ht Hs. inversion H; subst; cbn [sy_w sy_tasks sy_trace spares calm] in *; try contradiction; try (now exists t).
  destruct lab.
  2: { destruct A as (m & ev' & i & E & Ea & Hn). apply app_inv_head in E. injection E as _ <-.
       destruct (failure_ends _ _ _ _ _ _ _ H0 Ea) as [Ep ->]. apply in_mid in Ht. destruct Ht as [Ht|[->|Ht]].
       - exists t. split; [apply in_mid; auto|auto].
       - cbn [t_prog] in Hs. assert (Hp : point ms (accepted w) (history n tr) p).
         { pose proof (iv_points _ I) as F. cbn in F. rewrite Forall_forall in F. apply (F (Task n inst p)), in_elt. }
         destruct (failure_scanning _ _ _ _ _ _ _ _ _ _ Hp H0 Ea) as [_ K]. congruence.
       - apply in_app_or in Ht. destruct Ht as [Ht|[]]. exists t. split; [apply in_mid; auto|auto]. }
  assert (Hp : point ms (accepted w) (history n tr) p).
  { pose proof (iv_points _ I) as F. cbn in F. rewrite Forall_forall in F. apply (F (Task n inst p)), in_elt. }
  destruct (step_scanning _ _ _ _ _ _ _ _ _ Hp H0) as (K1 & K2 & _).
  apply in_mid in Ht. destruct Ht as [Ht|[->|Ht]].
  - exists t. split; [apply in_mid; auto|auto].
  - exists (Task n inst p). split; [apply in_elt|]. split; [reflexivity|]. cbn [t_prog] in *.
    destruct (scanning p); [reflexivity|]. now rewrite K1 in Hs.
  - apply in_app_or in Ht. destruct Ht as [Ht|Ht].
    + exists t. split; [apply in_mid; auto|auto].
    + exfalso. apply new_tasks_in in Ht. destruct Ht as (_ & c & Hc & E & _). rewrite E, (K2 c Hc) in Hs. discriminate.
Qed.

(** ** A measure: how often the mail can still come back to the queue *)
Definition returning (id : nat) (p : prog) : bool :=
  match p with PSendCancel i _ => im_id i =? id | PDelay _ _ | PCancelFound _ _ => true | _ => false end.
Definition returns (k id : nat) (s : sys) : nat :=
  length (filter (fun t => returning id (t_prog t)) (sy_tasks s)) + (k - refusals id (sy_trace s)).
Definition calm_now (s : sys) : Prop := forall t, In t (sy_tasks s) -> scanning (t_prog t) = false.
Lemma refusals_snoc id tr n ev : refusals id (tr ++ [(n, ev)])
  = refusals id tr + match ev with ESend i false => if i =? id then 1 else 0 | _ => 0 end.
Proof.
  unfold refusals. rewrite filter_app, app_length. f_equal. cbn. destruct ev as [| | |i []| | | | | |]; try reflexivity.
  now destruct (i =? id).
Qed.
Definition b2n (b : bool) : nat := if b then 1 else 0.
Lemma filter_mid {A} (f : A -> bool) a x b : length (filter f (a ++ x :: b)) = length (filter f a) + b2n (f x) + length (filter f b).
Proof. rewrite filter_app, app_length. cbn. destruct (f x); cbn; lia. Qed.
Lemma filter_none {A} (f : A -> bool) l : (forall x, In x l -> f x = false) -> filter f l = [].
Proof. induction l as [|x l IH]; intros H; [reflexivity|]. cbn. rewrite (H x) by now left. apply IH. intros y Hy. apply H. now right. Qed.

Lemma returns_step k id s act s' : inv s -> spares id s act s' -> sstep s act s' -> calm_now s ->
  k <= refusals id (sy_trace s') \/
  (returns k id s' <= returns k id s /\
   match lookup id (stor (sy_w s)), lookup id (stor (sy_w s')) with
   | Some (Inflight _), Some Queued => returns k id s' < returns k id s
   | Some (Inflight a), Some (Inflight b) => a = b
   | _, _ => True
   end).
Proof.
  intros I A H Q. inversion H; subst; cbn [spares calm] in *; try contradiction.
  - destruct lab.
    2: { destruct A as (m & ev' & i & E & Ea & Hn). cbn [sy_trace] in E. apply app_inv_head in E. injection E as _ <-.
         destruct (failure_ends _ _ _ _ _ _ _ H0 Ea) as [Ns ->]. destruct (failure_other id _ _ _ _ _ _ _ H0 Ea Hn) as (El & _ & _).
         assert (Hp : point ms (accepted w) (history n tr) p).
         { pose proof (iv_points _ I) as F. cbn in F. rewrite Forall_forall in F. apply (F (Task n inst p)), in_elt. }
         assert (Er : b2n (returning id p') = 0).
         { inversion Hp; subst; clear Hp; cbn in H0; inversion H0; subst; cbn in Ea; try discriminate Ea; reflexivity. }
         right. cbn [sy_w]. rewrite El. unfold returns. cbn [sy_tasks sy_trace]. rewrite !filter_mid, filter_app, refusals_snoc. cbn [t_prog new_tasks number map filter].
         rewrite Er, app_nil_r. split; [destruct ev; try contradiction; lia|]. destruct (lookup id (stor w)) as [[|]|]; auto. }
    assert (Hp : point ms (accepted w) (history n tr) p).
    { pose proof (iv_points _ I) as F. cbn in F. rewrite Forall_forall in F. apply (F (Task n inst p)), in_elt. }
    assert (Hq : scanning p = false) by (apply (Q (Task n inst p)); cbn; apply in_elt).
    destruct (step_scanning _ _ _ _ _ _ _ _ _ Hp H0) as (_ & _ & K). specialize (K Hq).
    unfold returns. cbn [sy_tasks sy_trace sy_w]. rewrite !filter_mid, filter_app, app_length, refusals_snoc. cbn [t_prog].
    rewrite (filter_none _ (new_tasks nx inst cs)).
    2: { intros t Ht. apply new_tasks_in in Ht. destruct Ht as (_ & c & Hc & E & _). destruct (K c Hc) as (q & ->). rewrite E. reflexivity. }
    cbn [length]. rewrite Nat.add_0_r. set (na := length _). set (nb := length _). clearbody na nb. generalize (refusals id tr) as r; intros r.
    inversion Hp; subst; clear Hp; try discriminate Hq; cbn in H0; inversion H0; subst; cbn [returning b2n after_start after_get after_transport
      after_cancel after_delay after_found send_queued_mail im_id fm_id stor set_stor body] in *;
      try (right; split; [lia|]; match goal with |- context[lookup id (stor ?x)] => destruct (lookup id (stor x)) as [[|]|] end; solve [auto]).
    + right. split; [lia|]. rewrite lookup_put. destruct (Nat.eqb_spec id0 id) as [->|].
      * destruct (lookup id (stor w)) as [[|]|]; auto. discriminate.
      * destruct (lookup id (stor w)) as [[|]|]; auto.
    + destruct (Nat.eqb_spec id0 id) as [->|]; cbn [b2n].
      * destruct (le_lt_dec k (r + 1)); [now left|right]. split; [lia|]. match goal with |- context[lookup id (stor ?x)] => destruct (lookup id (stor x)) as [[|]|] end; auto.
      * right. split; [lia|]. match goal with |- context[lookup id (stor ?x)] => destruct (lookup id (stor x)) as [[|]|] end; auto.
    + right. split; [lia|]. rewrite lookup_del. destruct (id0 =? id); destruct (lookup id (stor w)) as [[|]|]; auto.
    + right. destruct (Nat.eqb_spec id0 id) as [->|Hn]; cbn [b2n].
      * split; [lia|]. rewrite lookup_put, Nat.eqb_refl. destruct (lookup id (stor w)) as [[|]|]; auto; lia.
      * split; [lia|]. rewrite put_other by congruence. destruct (lookup id (stor w)) as [[|]|]; auto.
    + right. split; [lia|]. rewrite lookup_put. destruct (id0 =? id); destruct (lookup id (stor w)) as [[|]|]; auto; lia.
  - right. split; [unfold returns; cbn; lia|]. cbn [sy_w stor set_stor]. rewrite lookup_put. destruct (Nat.eqb_spec id0 id) as [->|].
    + rewrite H0. exact Logic.I.
    + destruct (lookup id (stor w)) as [[|]|]; auto.
  - right. split; [unfold returns; cbn; lia|]. cbn [sy_w stor]. destruct (lookup id (stor w)) as [[|]|]; auto.
Qed.

(** A task that handles the mail makes progress, or changes the status of the mail. *)
Definition rank (p : prog) : nat :=
  match p with PSpawn _ _ | PGetMail _ _ => 2 | PGoto _ | PTransport _ _ | PDelay _ _ => 1 | _ => 0 end.
Lemma handles_rank ms acc h id w p ev p' cs w' : point ms acc h p -> handles id w p -> scanning p = false ->
  pstep w p Normal ev p' cs w' -> lookup id (stor w') = lookup id (stor w) ->
  (handles id w' p' -> rank p' < rank p) /\ forall c, In c cs -> rank (body c) < rank p.
Proof.
  intros Hp Hh Hq P E. inversion Hp; subst; clear Hp; try discriminate Hq; cbn in P; inversion P; subst; cbn in *;
    (split; [intros X; try (now inversion X); try lia|intros c Hc; repeat destruct Hc as [<-|Hc]; try contradiction; cbn; try lia]);
    exfalso; inversion Hh; subst; cbn in *; rewrite ?lookup_put, ?lookup_del, ?Nat.eqb_refl in E; try congruence.
Qed.

(** ** Along an execution *)
Section Execution.
Context (id : nat) (e : nat -> sys) (He : execution_by (spares id) e) (I0 : inv (e 0)).
Lemma e_inv n : inv (e n).
Proof. induction n as [|n IH]; [exact I0|]. destruct (He n) as (act & _ & H). eapply inv_step; eauto. Qed.
Lemma e_point n t : In t (sy_tasks (e n)) ->
  point (sy_mails (e n)) (accepted (sy_w (e n))) (history (t_id t) (sy_trace (e n))) (t_prog t).
Proof. intros Ht. pose proof (iv_points _ (e_inv n)) as F. rewrite Forall_forall in F. now apply F. Qed.
(** A task stays as it is until it moves. *)
Lemma stays n t k : In t (sy_tasks (e n)) ->
  In t (sy_tasks (e (n + k))) \/ exists m, n <= m /\ In t (sy_tasks (e m)) /\ moved id (e m) (e (S m)) t.
Proof.
  intros Ht. induction k as [|k IH]; [rewrite Nat.add_0_r; now left|]. destruct IH as [IH|IH]; [|now right].
  rewrite Nat.add_succ_r. destruct (He (n + k)) as (act & A & H).
  destruct (task_step id _ _ _ t (e_inv _) A H IH) as [M|[M _]]; [|now left]. right. exists (n + k). repeat split; auto; lia.
Qed.
Context (Fair : answered e) (Time : time_passes e).
Lemma due_moves n t : In t (sy_tasks (e n)) -> due (sy_w (e n)) (t_prog t) ->
  exists m, n <= m /\ In t (sy_tasks (e m)) /\ moved id (e m) (e (S m)) t.
Proof.
  intros Ht D. destruct (Fair n t Ht D) as (m & ev & Hm & E). replace m with (n + (m - n)) in E by lia.
  destruct (stays n t (m - n) Ht) as [K|K]; [|exact K]. destruct (He (n + (m - n))) as (act & A & H).
  destruct (task_step id _ _ _ t (e_inv _) A H K) as [M|[_ M]]; [|now elim (M ev)].
  exists (n + (m - n)). repeat split; auto; lia.
Qed.
Lemma moves n t : In t (sy_tasks (e n)) -> (forall ok, t_prog t <> PEnd ok) ->
  exists m, n <= m /\ In t (sy_tasks (e m)) /\ moved id (e m) (e (S m)) t.
Proof.
  intros Ht Hp. destruct (t_prog t) eqn:E; try (apply due_moves; [exact Ht|rewrite E; exact I]).
  - now elim (Hp ok).
  - destruct (Time n deadline) as (m & Hm & D). replace m with (n + (m - n)) in D by lia.
    destruct (stays n t (m - n) Ht) as [K|K]; [|exact K].
    destruct (due_moves (n + (m - n)) t K) as (j & Hj & R); [rewrite E; exact D|]. exists j. split; [lia|exact R].
Qed.

(** *** The scans end *)
Context (Ends : listings_end e).
Definition to_listing (p : prog) : nat :=
  match p with PQueueNext _ _ | PFindNext _ _ => 0 | PGoto _ => 1 | PListQueue _ | PFindInflight _ | PSpawn _ _ => 2 | _ => 3 end.
Lemma scan_over i : exists n, forall m t, n <= m -> In t (sy_tasks (e m)) -> t_id t = i -> scanning (t_prog t) = false.
Proof.
  destruct (Ends i) as (n & Hn). exists n. intros m t Hm Ht Ei. destruct (scanning (t_prog t)) eqn:Es; [exfalso|reflexivity].
  assert (K : forall d m t, n <= m -> In t (sy_tasks (e m)) -> t_id t = i -> scanning (t_prog t) = true -> to_listing (t_prog t) <= d -> False).
  { clear m t Hm Ht Ei Es. induction d as [|d IH]; intros m t Hm Ht Ei Es Hd.
    - specialize (Hn m t Hm Ht Ei). destruct (t_prog t) as [| | | | | | | | | | | | | |[]]; cbn in *; try lia; contradiction.
    - destruct (to_listing (t_prog t)) eqn:Ed; [eapply IH; eauto; lia|].
      destruct (moves m t Ht) as (j & Hj & Htj & lab & ev & p' & cs & P & Pf & Hin & _); [intros ok E; rewrite E in Es; discriminate|].
      assert (scanning p' = true /\ to_listing p' < S n0) as [S1 S2].
      { pose proof (e_point j t Htj) as Hp. destruct lab.
        2: { destruct (Pf eq_refl) as (i' & Ea & _). destruct (failure_scanning _ _ _ _ _ _ _ _ _ _ Hp P Ea) as [K _]. congruence. }
        clear Pf. rewrite <- Ed. clear -Hp P Es Ed. destruct t as [ti tn p]. cbn [t_prog t_id] in *.
        inversion Hp; subst; try discriminate; cbn in P; inversion P; subst; cbn in *; try discriminate; split; auto; lia. }
      apply (IH (S j) (Task (t_id t) (t_inst t) p')); [lia|exact Hin|exact Ei|exact S1|cbn [t_prog]; lia]. }
  eapply K; eauto.
Qed.
Lemma scan_ids_old n t : In t (sy_tasks (e n)) -> scanning (t_prog t) = true -> In (t_id t) (map t_id (sy_tasks (e 0))).
Proof.
  revert t. induction n as [|n IH]; intros t Ht Es; [now apply in_map|].
  destruct (He n) as (act & A & H). destruct (old_scanning id _ _ _ t (e_inv n) A H Ht Es) as (t0 & H0 & E1 & E0). rewrite <- E1. now apply IH.
Qed.
Lemma scans_over : exists n, forall m, n <= m -> calm_now (e m).
Proof.
  assert (K : forall l, exists n, forall m t, n <= m -> In t (sy_tasks (e m)) -> In (t_id t) l -> scanning (t_prog t) = false).
  { induction l as [|i l (n & IH)]; [exists 0; intros m t _ _ []|]. destruct (scan_over i) as (n' & Hn'). exists (n + n').
    intros m t Hm Ht [E|Hi]; [eapply (Hn' m); [lia|exact Ht|now symmetry]|apply (IH m); [lia|exact Ht|exact Hi]]. }
  destruct (K (map t_id (sy_tasks (e 0)))) as (n & Hn). exists n. intros m Hm t Ht.
  destruct (scanning (t_prog t)) eqn:Es; [|reflexivity]. rewrite <- Es. eapply Hn; eauto. eapply scan_ids_old; eauto.
Qed.

(** *** A mail that is handled is removed, or refused again and again *)
Context (k : nat) (C0 : covered id (e 0)) (N0 : nat) (Q : forall m, N0 <= m -> calm_now (e m)).
Let st (n : nat) : option status := lookup id (stor (sy_w (e n))).
Let M (n : nat) : nat := returns k id (e n).
Definition settled (n : nat) : Prop := exists m, n <= m /\ (lookup id (stor (sy_w (e m))) = None \/ k <= refusals id (sy_trace (e m))).
Lemma settled_later n m : n <= m -> settled m -> settled n.
Proof. intros H (j & Hj & K). exists j. split; [lia|exact K]. Qed.
Lemma M_step n : N0 <= n -> settled n \/ (M (S n) <= M n /\
   match st n, st (S n) with
   | Some (Inflight _), Some Queued => M (S n) < M n
   | Some (Inflight a), Some (Inflight b) => a = b
   | _, _ => True
   end).
Proof.
  intros Hn. destruct (He n) as (act & A & H).
  destruct (returns_step k id _ _ _ (e_inv n) A H (Q n Hn)) as [K|K]; [left; exists (S n); split; [lia|auto]|right; exact K].
Qed.
(** While nothing happens to the mail, the task that handles it goes on. *)
Lemma stay_put (M0 : nat) (s : status)
  (Change : forall n, N0 <= n -> M n <= M0 -> st n = Some s -> M (S n) <= M0 -> st (S n) <> Some s -> settled n) :
  forall j n, N0 <= n -> M n <= M0 -> st n = Some s -> settled n \/ (st (n + j) = Some s /\ M (n + j) <= M0).
Proof.
  induction j as [|j IH]; intros n Hn Hm Hs; [rewrite Nat.add_0_r; auto|].
  destruct (IH n Hn Hm Hs) as [K|(K1 & K2)]; [now left|]. rewrite Nat.add_succ_r.
  destruct (M_step (n + j)) as [K|(K3 & _)]; [lia|left; eapply settled_later; [|exact K]; lia|].
  destruct (st (S (n + j))) as [s'|] eqn:E.
  - assert (D : s' = s \/ s' <> s) by (destruct s as [|a], s' as [|b]; try (now left); try (now right); destruct (Nat.eq_dec b a); [left|right]; congruence).
    destruct D as [->|D]; [right; split; [reflexivity|lia]|]. left. apply settled_later with (n + j); [lia|].
    apply Change; auto; [lia|lia|congruence].
  - left. exists (S (n + j)). split; [lia|now left].
Qed.
Lemma handled (M0 : nat) (s : status)
  (Change : forall n, N0 <= n -> M n <= M0 -> st n = Some s -> M (S n) <= M0 -> st (S n) <> Some s -> settled n) :
  forall r n t, N0 <= n -> M n <= M0 -> st n = Some s -> In t (sy_tasks (e n)) -> handles id (sy_w (e n)) (t_prog t) ->
  rank (t_prog t) <= r -> settled n.
Proof.
  induction r as [r IH] using lt_wf_ind. intros n t Hn Hm Hs Ht Hh Hr.
  destruct (moves n t Ht) as (m & Hnm & Htm & lab & ev & p' & cs & P & Pf & Hin & Hnew); [intros ok E; rewrite E in Hh; inversion Hh|].
  replace m with (n + (m - n)) in * by lia. set (j := m - n) in *. clearbody j. clear Hnm m.
  destruct (stay_put M0 s Change j n Hn Hm Hs) as [K|(K1 & K2)]; [exact K|].
  destruct (stay_put M0 s Change (S j) n Hn Hm Hs) as [K|(K3 & K4)]; [exact K|]. rewrite Nat.add_succ_r in K3, K4.
  assert (Hh' : handles id (sy_w (e (n + j))) (t_prog t)) by (eapply handles_same; [|exact Hh]; unfold st in *; congruence).
  assert (Hq : scanning (t_prog t) = false) by (apply (Q (n + j)); [lia|exact Htm]).
  destruct lab.
  2: { destruct (Pf eq_refl) as (i & Ea & Hi). destruct (failure_other id _ _ _ _ _ _ _ P Ea Hi) as (_ & K & _). contradiction. }
  assert (T : settled (S (n + j)) -> settled n) by (apply settled_later; lia).
  pose proof (handles_step _ _ _ _ _ _ _ Hh' P) as D. unfold st in K1, K3.
  pose proof (handles_rank _ _ _ _ _ _ _ _ _ _ (e_point _ _ Htm) Hh' Hq P (eq_trans K3 (eq_sym K1))) as (R1 & R2).
  assert (Go : forall t', In t' (sy_tasks (e (S (n + j)))) -> handles id (sy_w (e (S (n + j)))) (t_prog t') ->
    rank (t_prog t') < rank (t_prog t) -> settled n).
  { intros t' Ht' Hh2 Hlt. apply T. apply (IH (rank (t_prog t'))) with t'; auto; lia. }
  destruct D as [D|[D|(c & Hc & D)]]; [congruence|exact (Go _ Hin D (R1 D))|].
  destruct (Hnew c Hc) as (t' & Ht' & E). apply (Go t' Ht'); rewrite E; auto.
Qed.
Lemma handler n : st n <> None -> exists t, In t (sy_tasks (e n)) /\ handles id (sy_w (e n)) (t_prog t).
Proof.
  intros Hs. assert (C : covered id (e n)).
  { clear Hs. induction n as [|n IH]; [exact C0|]. destruct (He n) as (act & A & H). eapply covered_step; [apply (e_inv n)|exact IH|exact A|exact H]. }
  destruct C as [_ [K|K]]; [contradiction|exact K].
Qed.
Lemma all_settled M0 : forall n, N0 <= n -> M n <= M0 -> settled n.
Proof.
  induction M0 as [M0 IH] using lt_wf_ind.
  assert (Fly : forall tok n, N0 <= n -> M n <= M0 -> st n = Some (Inflight tok) -> settled n).
  { intros tok n Hn Hm Hs. destruct (handler n) as (t & Ht & Hh); [congruence|].
    apply (handled M0 (Inflight tok)) with (r := rank (t_prog t)) (t := t); auto.
    clear n t Hn Hm Hs Ht Hh. intros n Hn Hm Hs Hm' Hd. destruct (M_step n Hn) as [K|(_ & K)]; [exact K|]. rewrite Hs in K.
    destruct (st (S n)) as [[|tok']|] eqn:E; [|congruence|exists (S n); split; [lia|now left]].
    apply settled_later with (S n); [lia|]. apply (IH (M (S n))); lia. }
  intros n Hn Hm. destruct (st n) as [[|tok]|] eqn:Hs; [|eapply Fly; eauto|exists n; split; [lia|now left]].
  destruct (handler n) as (t & Ht & Hh); [congruence|].
  apply (handled M0 Queued) with (r := rank (t_prog t)) (t := t); auto.
  clear n t Hn Hm Hs Ht Hh. intros n Hn Hm Hs Hm' Hd. apply settled_later with (S n); [lia|].
  destruct (st (S n)) as [[|tok']|] eqn:E; [congruence| |exists (S n); split; [lia|now left]].
  apply (Fly tok'); auto; lia.
Qed.
End Execution.
