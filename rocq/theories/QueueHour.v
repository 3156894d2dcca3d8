(** The hour of C60: what an instance found in flight is left alone for 3600 s. *)
From Coq Require Import List Arith NArith Bool Lia.
Import ListNotations.
From Verif Require Import Queue SpecQueue QueueProofs QueueTime.
Local Open Scope nat_scope.

(** The startup times the program carries are not before [T]; a recovery under way
    comes an hour later. *)
Definition late_call (T : N) (c : call) : Prop :=
  match c with CFound t _ | CQueueLoop t _ | CFindLoop t _ => (T <= t)%N | _ => True end.
Inductive late (T now : N) : prog -> Prop :=
| lt_end ok : late T now (PEnd ok)
| lt_send q : late T now (send_queued_mail q)
| lt_get i : late T now (PGetMail i (after_get i))
| lt_transport m i : late T now (PTransport m (after_transport i))
| lt_done i : late T now (PSendDone i PEnd)
| lt_cancel i : late T now (PSendCancel i after_cancel)
| lt_retry q : late T now (PSpawn (CSend q) (PEnd true))
| lt_wait t f : (T <= t)%N -> late T now (found t f)
| lt_recover f : (T + 3600 <= now)%N -> late T now (PCancelFound f after_found)
| lt_run : late T now run
| lt_list t : (T <= t)%N -> late T now (PListQueue (fun l => PGoto (CQueueLoop t l)))
| lt_loop t l : (T <= t)%N -> late T now (queue_loop t l)
| lt_goto c : late_call T c -> late T now (PGoto c)
| lt_spawn c c' : late_call T c -> late_call T c' -> late T now (PSpawn c (PGoto c'))
| lt_find t : (T <= t)%N -> late T now (PFindInflight (fun l => PGoto (CFindLoop t l)))
| lt_find_loop t l : (T <= t)%N -> late T now (find_loop t l).
Lemma late_more T t t' p : (t <= t')%N -> late T t p -> late T t' p.
Proof. intros H L. destruct L; constructor; auto; lia. Qed.
Lemma late_body T t c : late_call T c -> late T t (body c).
Proof. destruct c; cbn; intros H; now constructor. Qed.
Lemma late_step T w p lab ev p' cs w' : (T <= now w)%N -> late T (now w) p -> pstep w p lab ev p' cs w' ->
  late T (now w) p' /\ Forall (late_call T) cs /\ match ev with ERecover _ _ => (T + 3600 <= now w)%N | _ => True end.
Proof.
  intros Ht L H. inversion L; subst; clear L; cbn in H; inversion H; subst; clear H; (split; [|split; [repeat constructor; auto|try exact I; auto]]);
    cbn [late_call] in *; try (now constructor); try (now apply late_body); try (constructor; cbn; auto; fail).
  - (* the timer *) apply lt_recover. unfold recovery_delay in *. lia.
Qed.
Definition hour (T : N) (inst : nat) (s : sys) : Prop :=
  (T <= now (sy_w s))%N /\ forall t, In t (sy_tasks s) -> t_inst t = inst -> late T (now (sy_w s)) (t_prog t).
Lemma pstep_now w p lab ev p' cs w' : pstep w p lab ev p' cs w' -> now w' = now w.
Proof. intros H. inversion H; reflexivity. Qed.
Lemma hour_step T inst s act s' : hour T inst s -> sstep s act s' -> hour T inst s'.
Proof.
  intros [HT HL] H. inversion H; subst; unfold hour; cbn [sy_w sy_tasks] in *.
  - pose proof (pstep_now _ _ _ _ _ _ _ H0) as En. rewrite En. split; [exact HT|]. intros t Ht Ei. rewrite in_mid, in_app_iff in Ht.
    destruct Ht as [Ht|[->|[Ht|Ht]]].
    + apply HL; [apply in_mid; auto|exact Ei].
    + cbn [t_prog t_inst] in *. subst inst0. eapply late_step; [exact HT| |exact H0]. apply (HL (Task n inst p)); [apply in_elt|reflexivity].
    + apply HL; [apply in_mid; auto|exact Ei].
    + apply new_tasks_in in Ht. destruct Ht as (_ & c & Hc & E & Ei'). rewrite E. apply late_body.
      assert (inst0 = inst) as -> by congruence.
      destruct (late_step T _ _ _ _ _ _ _ HT (HL (Task n inst p) ltac:(apply in_elt) eq_refl) H0) as (_ & F & _).
      rewrite Forall_forall in F. now apply F.
  - split; [exact HT|exact HL].
  - cbn [now]. split; [lia|]. intros t Ht Ei. eapply late_more; [|apply HL; eauto]. lia.
  - split; [exact HT|]. intros t Ht Ei. apply in_app_or in Ht. destruct Ht as [Ht|[<-|[]]]; [now apply HL|constructor].
  - split; [exact HT|]. intros t Ht Ei. apply filter_In in Ht. now apply HL.
Qed.
Lemma steps_hour T inst s acts s' : steps s acts s' -> hour T inst s -> hour T inst s'.
Proof. induction 1 as [s|s acts s1 act s2 H IH Hs]; intros K; [exact K|]. exact (hour_step _ _ _ _ _ (IH K) Hs). Qed.
