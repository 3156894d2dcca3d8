(** An executable scheduler for the queue model, used to exhibit executions. *)
From Coq Require Import List Arith NArith Bool Lia.
Import ListNotations.
From Verif Require Import Queue SpecQueue.
Local Open Scope nat_scope.

(** How the environment answers an operation. *)
Inductive answer :=
| Yes            (* as it should; for the transport: accepted *)
| No             (* stale handle, end of a listing; for the transport: refused *)
| Broken         (* an I/O error, without effect *)
| Pick (id : nat). (* the mail a listing gives *)

Definition status_eqb (a b : option status) : bool :=
  match a, b with
  | Some Queued, Some Queued => true
  | Some (Inflight x), Some (Inflight y) => x =? y
  | None, None => true
  | _, _ => false
  end.
Lemma status_eqb_spec a b : reflect (a = b) (status_eqb a b).
Proof.
  destruct a as [[|x]|], b as [[|y]|]; cbn; try (constructor; congruence).
  destruct (Nat.eqb_spec x y); constructor; congruence.
Qed.
Definition pair_eqb (a b : nat * nat) : bool := (fst a =? fst b) && (snd a =? snd b).

Definition pexec (w : world) (p : prog) (a : answer) : option (label * event * prog * list call * world) :=
  match p, a with
  | PNow k, Yes => Some (Normal, ETick, k (now w), [], w)
  | PGoto c, Yes => Some (Normal, ETick, body c, [], w)
  | PSpawn c k, Yes => Some (Normal, ESpawn c, k, [c], w)
  | PDelay t k, Yes => if (t <=? now w)%N then Some (Normal, ETick, k true, [], w) else None
  | PListQueue k, Yes => Some (Normal, ETick, k (Listing (queued_ids (stor w)) []), [], w)
  | PQueueNext l k, Pick id =>
      if status_eqb (lookup id (stor w)) (Some Queued)
      then Some (Normal, EListed id, k (Listing (li_must l) (id :: li_seen l)) (Item (Qm id)), [], w) else None
  | PQueueNext l k, No =>
      if forallb (fun id => negb (status_eqb (lookup id (stor w)) (Some Queued)) || existsb (Nat.eqb id) (li_seen l)) (li_must l)
      then Some (Normal, ETick, k l End, [], w) else None
  | PFindInflight k, Yes => Some (Normal, ETick, k (Listing (inflight_ids (stor w)) []), [], w)
  | PFindNext l k, Pick id =>
      match lookup id (stor w) with
      | Some (Inflight tok) => Some (Normal, EFound id, k (Listing (li_must l) ((id, tok) :: li_seen l)) (Item (Fm id tok)), [], w)
      | _ => None
      end
  | PFindNext l k, No =>
      if forallb (fun e => negb (status_eqb (lookup (fst e) (stor w)) (Some (Inflight (snd e)))) || existsb (pair_eqb e) (li_seen l)) (li_must l)
      then Some (Normal, ETick, k l End, [], w) else None
  | PDelay t k, Broken => Some (Failure, ETick, k false, [], w)
  | PQueueNext l k, Broken => Some (Failure, ETick, k l Error, [], w)
  | PFindNext l k, Broken => Some (Failure, ETick, k l Error, [], w)
  | PSendStart (Qm id) k, Broken => Some (Failure, EStart id None, k None, [], World (now w) (stor w) (S (fresh w)) (accepted w))
  | PSendCancel i k, Broken => Some (Failure, ECancel (im_id i) false, k None, [], set_stor w (stor w))
  | PCancelFound f k, Broken => Some (Failure, ERecover (fm_id f) false, k None, [], set_stor w (stor w))
  | PSendStart (Qm id) k, Yes =>
      if status_eqb (lookup id (stor w)) (Some Queued)
      then Some (Normal, EStart id (Some (fresh w)), k (Some (Im id (fresh w) (now w))), [],
                 World (now w) (put id (Inflight (fresh w)) (stor w)) (S (fresh w)) (accepted w)) else None
  | PSendStart (Qm id) k, No =>
      if status_eqb (lookup id (stor w)) (Some Queued) then None else Some (Normal, EStart id None, k None, [], w)
  | PGetMail i k, Yes => Some (Normal, EGet (im_id i) true, k (Some (im_id i)), [], w)
  | PGetMail i k, Broken => Some (Failure, EGet (im_id i) false, k None, [], w)
  | PTransport m k, Yes => Some (Normal, ESend m true, k true, [], World (now w) (stor w) (fresh w) (accepted w ++ [m]))
  | PTransport m k, No => Some (Normal, ESend m false, k false, [], w)
  | PSendDone i k, Yes =>
      if status_eqb (lookup (im_id i) (stor w)) (Some (Inflight (im_tok i)))
      then Some (Normal, EDone (im_id i) true, k true, [], set_stor w (del (im_id i) (stor w))) else None
  | PSendDone i k, Broken => Some (Failure, EDone (im_id i) false, k false, [], set_stor w (stor w))
  | PSendCancel i k, Yes =>
      if status_eqb (lookup (im_id i) (stor w)) (Some (Inflight (im_tok i)))
      then Some (Normal, ECancel (im_id i) true, k (Some (Qm (im_id i))), [], set_stor w (put (im_id i) Queued (stor w))) else None
  | PCancelFound f k, Yes =>
      if status_eqb (lookup (fm_id f) (stor w)) (Some (Inflight (fm_tok f)))
      then Some (Normal, ERecover (fm_id f) true, k (Some (Qm (fm_id f))), [], set_stor w (put (fm_id f) Queued (stor w))) else None
  | _, _ => None
  end.
Lemma pexec_sound w p a lab ev p' cs w' : pexec w p a = Some (lab, ev, p', cs, w') -> pstep w p lab ev p' cs w'.
Proof.
  destruct p as [|k|k|l k|k|l k|t k|f k|[id] k|i k|m k|i k|i k|c k|c], a; cbn; try discriminate;
    try (intros [= <- <- <- <- <-]; constructor; unfold either; auto; fail).
  - destruct (forallb _ _) eqn:F; [|discriminate]. intros [= <- <- <- <- <-]. constructor. intros id Hid Hq.
    rewrite forallb_forall in F. specialize (F id Hid). rewrite Hq in F. cbn in F.
    apply existsb_exists in F. destruct F as (y & Hy & E). apply Nat.eqb_eq in E. now subst.
  - destruct (status_eqb_spec (lookup id (stor w)) (Some Queued)); [|discriminate]. intros [= <- <- <- <- <-]. now constructor.
  - destruct (forallb _ _) eqn:F; [|discriminate]. intros [= <- <- <- <- <-]. constructor. intros id tok Hid Hq.
    rewrite forallb_forall in F. specialize (F (id, tok) Hid). cbn [fst snd] in F. rewrite Hq in F. cbn in F.
    rewrite Nat.eqb_refl in F. cbn in F.
    apply existsb_exists in F. destruct F as ([y z] & Hy & E). unfold pair_eqb in E. cbn in E.
    rewrite andb_true_iff, !Nat.eqb_eq in E. destruct E as [-> ->]. exact Hy.
  - destruct (lookup id (stor w)) as [[|tok]|] eqn:E; try discriminate. intros [= <- <- <- <- <-]. now constructor.
  - destruct (N.leb_spec t (now w)); [|discriminate]. intros [= <- <- <- <- <-]. now constructor.
  - destruct (status_eqb_spec (lookup (fm_id f) (stor w)) (Some (Inflight (fm_tok f)))); [|discriminate]. intros [= <- <- <- <- <-]. now constructor.
  - destruct (status_eqb_spec (lookup id (stor w)) (Some Queued)); [|discriminate]. intros [= <- <- <- <- <-]. now constructor.
  - destruct (status_eqb_spec (lookup id (stor w)) (Some Queued)); [discriminate|]. intros [= <- <- <- <- <-]. now constructor.
  - destruct (status_eqb_spec (lookup (im_id i) (stor w)) (Some (Inflight (im_tok i)))); [|discriminate]. intros [= <- <- <- <- <-]. now constructor.
  - destruct (status_eqb_spec (lookup (im_id i) (stor w)) (Some (Inflight (im_tok i)))); [|discriminate]. intros [= <- <- <- <- <-]. now constructor.
Qed.

Inductive move :=
| MStep (n : nat) (a : answer)    (* task number [n] does its operation *)
| MEnqueue (id : nat) | MTick (dt : N) | MBoot (inst : nat) | MCrash (inst : nat).

(** The task with number [n]: those before and after it. *)
Fixpoint find_task (n : nat) (ts : list task) : option (list task * task * list task) :=
  match ts with
  | [] => None
  | t :: ts' => if t_id t =? n then Some ([], t, ts')
                else match find_task n ts' with Some (a, x, b) => Some (t :: a, x, b) | None => None end
  end.
Lemma find_task_spec n ts a t b : find_task n ts = Some (a, t, b) -> ts = a ++ t :: b /\ t_id t = n.
Proof.
  revert a. induction ts as [|x ts IH]; intros a; cbn; [discriminate|].
  destruct (Nat.eqb_spec (t_id x) n) as [E|]; [intros [= <- <- <-]; auto|].
  destruct (find_task n ts) as [[[a' y] b']|]; [|discriminate]. intros [= <- <- <-]. destruct (IH a' eq_refl) as [-> ?]. auto.
Qed.

Definition sexec (s : sys) (m : move) : option (action * sys) :=
  match m with
  | MStep n an =>
      match find_task n (sy_tasks s) with
      | Some (a, t, b) =>
          match pexec (sy_w s) (t_prog t) an with
          | Some (lab, ev, p', cs, w') =>
              Some (AStep lab, Sys w' (a ++ Task (t_id t) (t_inst t) p' :: b ++ new_tasks (sy_next s) (t_inst t) cs)
                (sy_next s + length cs) (sy_mails s) (sy_trace s ++ [(t_id t, ev)]))
          | None => None
          end
      | None => None
      end
  | MEnqueue id =>
      if status_eqb (lookup id (stor (sy_w s))) None && negb (existsb (Nat.eqb id) (sy_mails s))
      then Some (AEnqueue id, Sys (set_stor (sy_w s) (put id Queued (stor (sy_w s)))) (sy_tasks s) (sy_next s) (sy_mails s ++ [id]) (sy_trace s))
      else None
  | MTick dt => Some (ATick, Sys (World (now (sy_w s) + dt) (stor (sy_w s)) (fresh (sy_w s)) (accepted (sy_w s)))
                       (sy_tasks s) (sy_next s) (sy_mails s) (sy_trace s))
  | MBoot inst => Some (ABoot inst, Sys (sy_w s) (sy_tasks s ++ [Task (sy_next s) inst run]) (S (sy_next s)) (sy_mails s) (sy_trace s))
  | MCrash inst => Some (ACrash inst, Sys (sy_w s) (filter (fun t => negb (t_inst t =? inst)) (sy_tasks s)) (sy_next s) (sy_mails s) (sy_trace s))
  end.
Lemma sexec_sound s m act s' : sexec s m = Some (act, s') -> sstep s act s'.
Proof.
  destruct s as [w ts nx ms tr]. destruct m as [n an|id|dt|inst|inst]; cbn [sexec sy_w sy_tasks sy_next sy_mails sy_trace].
  - destruct (find_task n ts) as [[[a [n' i p]] b]|] eqn:F; [|discriminate]. apply find_task_spec in F. destruct F as [-> _].
    cbn [t_prog t_id t_inst].
    destruct (pexec w p an) as [[[[[lab ev] p'] cs] w']|] eqn:E; [|discriminate]. intros [= <- <-].
    apply ss_task. eapply pexec_sound; eauto.
  - destruct (status_eqb_spec (lookup id (stor w)) None) as [E|]; [|discriminate]. cbn [andb].
    destruct (existsb _ ms) eqn:Ex; [discriminate|]. intros [= <- <-]. apply ss_enqueue; [exact E|].
    intros Hi. assert (existsb (Nat.eqb id) ms = true) by (apply existsb_exists; exists id; split; [exact Hi|apply Nat.eqb_refl]). congruence.
  - intros [= <- <-]. apply ss_tick.
  - intros [= <- <-]. apply ss_boot.
  - intros [= <- <-]. apply ss_crash.
Qed.

(** Run moves, checking every action and state. *)
Fixpoint execs (aok : action -> bool) (sok : sys -> bool) (s : sys) (ms : list move) : option sys :=
  match ms with
  | [] => Some s
  | m :: ms' => match sexec s m with
                | Some (act, s') => if aok act && sok s' then execs aok sok s' ms' else None
                | None => None
                end
  end.
Lemma execs_sound (A : action -> Prop) (P : sys -> Prop) aok sok :
  (forall a, aok a = true -> A a) -> (forall s, sok s = true -> P s) ->
  forall ms s s0 s', reach A P s0 s -> execs aok sok s ms = Some s' -> reach A P s0 s'.
Proof.
  intros HA HP. induction ms as [|m ms IH]; intros s s0 s' R; cbn; [now intros [= <-]|].
  destruct (sexec s m) as [[act s1]|] eqn:E; [|discriminate]. destruct (aok act && sok s1) eqn:B; [|discriminate].
  apply andb_true_iff in B. destruct B as [B1 B2]. apply IH. eapply rc_step; eauto. eapply sexec_sound; eauto.
Qed.
