(** The oracle of the fuzz target agrees with [DataStream]. *)
From Verif Require Import Bytes Stream SpecData DataProofs DataLines StreamProofs Fuzz.

Definition opt (r : bytes * option bytes) : option (bytes * bytes) :=
  match r with (o, Some x) => Some (o, x) | (_, None) => None end.
Definition st_of (a b : N) : ds_state :=
  if (b =? CR)%N then CrPassed
  else if (a =? CR)%N && (b =? LF)%N then CrLfPassed else Running.
Definition push (w : bytes) : bytes := if beq w (CRLF ++ [DOT]) then [] else [nth 2 w 0%N].
Definition pushes (ws : list bytes) : bytes := concat (map push ws).

Lemma naive_push_app ws : forall out, naive_push out ws = out ++ pushes ws.
Proof.
  induction ws as [|w ws IH]; intros out; cbn [naive_push pushes map concat]; [now rewrite app_nil_r|].
  rewrite IH. unfold push. destruct (beq w (CRLF ++ [DOT])); [reflexivity|]. rewrite <- app_assoc. reflexivity.
Qed.

Definition W (raw : bytes) : option (bytes * bytes) :=
  match position_of (fun x => beq x (CRLF ++ [DOT] ++ CRLF)) (windows 5 raw) with
  | Some p => Some (pushes (windows 3 (firstn (p + 2) raw)), skipn (p + 5) raw)
  | None => None
  end.

Definition consr (w : bytes) (r : option (bytes * bytes)) : option (bytes * bytes) :=
  match r with Some (o, x) => Some (w ++ o, x) | None => None end.

Lemma position_len (p : bytes -> bool) n : forall l k, position_of p (windows (S n) l) = Some k -> k + S n <= length l.
Proof.
  induction l as [|c l IH]; intros k H; [discriminate|].
  cbn [windows] in H. destruct (Nat.leb (S n) (length (c :: l))) eqn:E; [|discriminate].
  apply Nat.leb_le in E. cbn [position_of] in H.
  destruct (p _); [injection H as <-; exact E|].
  destruct (position_of p (windows (S n) l)) as [j|] eqn:Ej; [|discriminate].
  injection H as <-. specialize (IH j eq_refl). simpl. lia.
Qed.

Lemma W_step a b c l :
  W (a :: b :: c :: l) =
    if beq (firstn 5 (a :: b :: c :: l)) (CRLF ++ [DOT] ++ CRLF)
    then Some ([], skipn 5 (a :: b :: c :: l))
    else consr (push [a; b; c]) (W (b :: c :: l)).
Proof.
  unfold W. set (P := fun x => beq x _). set (l1 := b :: c :: l).
  change (windows 5 (a :: l1)) with
    (if Nat.leb 5 (length (a :: l1)) then firstn 5 (a :: l1) :: windows 5 l1 else []).
  destruct (Nat.leb 5 (length (a :: l1))) eqn:E.
  - cbn [position_of]. unfold P at 1.
    destruct (beq (firstn 5 (a :: l1)) (CRLF ++ [DOT] ++ CRLF)) eqn:B; [reflexivity|].
    destruct (position_of P (windows 5 l1)) as [k|] eqn:Ek; [|reflexivity].
    cbn [option_map consr]. f_equal. f_equal. unfold l1.
    pose proof (position_len _ 4 _ _ Ek) as L.
    cbn [Nat.add firstn]. rewrite (Nat.add_comm k 2). cbn [Nat.add firstn].
    change (push [a; b; c] ++ ?x) with (push [a; b; c] ++ x).
    cbn [windows length]. cbn [Nat.leb firstn pushes map concat]. reflexivity.
  - assert (S5 : windows 5 l1 = []).
    { unfold l1. cbn [windows]. apply Nat.leb_gt in E. unfold l1 in E. cbn [length] in *.
      destruct (Nat.leb 5 (S (S (length l)))) eqn:E2; [apply Nat.leb_le in E2; lia|reflexivity]. }
    rewrite S5. cbn [position_of consr].
    destruct (beq (firstn 5 (a :: l1)) (CRLF ++ [DOT] ++ CRLF)) eqn:B; [|reflexivity].
    apply beq_eq in B. apply (f_equal (@length N)) in B. rewrite firstn_length in B.
    apply Nat.leb_gt in E. cbn [CRLF app length] in *. lia.
Qed.

Lemma opt_cons1 a r : opt (cons1 a r) = consr [a] (opt r).
Proof. destruct r as [o [x|]]; reflexivity. Qed.
Lemma consr_nil r : consr [] r = r.
Proof. destruct r as [[o x]|]; reflexivity. Qed.
Lemma consr_app u v r : consr u (consr v r) = consr (u ++ v) r.
Proof. destruct r as [[o x]|]; cbn; [now rewrite app_assoc|reflexivity]. Qed.

Lemma W_short a b : W [a; b] = None.
Proof. reflexivity. Qed.

Lemma first5 a b c l : beq (firstn 5 (a :: b :: c :: l)) (CRLF ++ [DOT] ++ CRLF) =
  ((a =? CR) && (b =? LF) && (c =? DOT))%N &&
    match l with y :: z :: _ => ((y =? CR) && (z =? LF))%N | _ => false end.
Proof.
  destruct l as [|y [|z l]]; cbn [firstn CRLF app beq];
    destruct (a =? CR)%N, (b =? LF)%N, (c =? DOT)%N; try reflexivity; cbn [andb];
    try (destruct (y =? CR)%N; reflexivity).
  now rewrite andb_true_r.
Qed.

Lemma W_dec : forall l a b, W (a :: b :: l) = opt (dec (st_of a b) l).
Proof.
  induction l as [|c l IH]; intros a b; [apply W_short|].
  rewrite W_step, first5, IH. unfold push. cbn [CRLF app beq nth].
  cbn [dec]. unfold st_of at 2.
  destruct (c =? CR)%N eqn:Ec.
  { apply N.eqb_eq in Ec. subst c. change (CR =? DOT)%N with false. cbn [andb].
    rewrite ?andb_false_r. cbn [andb]. rewrite ?andb_false_r. now rewrite opt_cons1. }
  destruct (b =? CR)%N eqn:Eb.
  { apply N.eqb_eq in Eb. subst b. change (CR =? LF)%N with false. cbn [andb].
    rewrite ?andb_false_r. cbn [andb]. rewrite ?andb_false_r.
    unfold st_of. rewrite Ec.
    destruct (c =? LF)%N eqn:El; rewrite opt_cons1; reflexivity. }
  destruct ((a =? CR)%N && (b =? LF)%N) eqn:Eab.
  - apply andb_true_iff in Eab. destruct Eab as [-> Elf]. rewrite Elf. cbn [andb].
    unfold st_of. rewrite Ec, Eb. cbn [andb].
    destruct (c =? DOT)%N eqn:Ed; cbn [andb].
    + destruct l as [|y [|z l]].
      * reflexivity.
      * cbn [dec]. destruct (y =? CR)%N; reflexivity.
      * destruct ((y =? CR)%N && (z =? LF)%N); [reflexivity|apply consr_nil].
    + now rewrite opt_cons1.
  - cbn [andb]. rewrite andb_assoc, Eab. cbn [andb]. unfold st_of. rewrite Ec, Eb. cbn [andb].
    now rewrite opt_cons1.
Qed.

Theorem naive_dec raw : naive_result raw = Some (opt (dec CrLfPassed raw)).
Proof.
  unfold naive_result, naive_eof.
  destruct raw as [|x [|y l]]; [reflexivity| |].
  { cbn. destruct (x =? CR)%N; [reflexivity|]. destruct (x =? DOT)%N; reflexivity. }
  assert (E3 : (Nat.leb 3 (length (x :: y :: l)) && beq (firstn 3 (x :: y :: l)) (DOT :: CRLF))
    = ((x =? DOT) && (y =? CR))%N && match l with z :: _ => (z =? LF)%N | [] => false end).
  { destruct l as [|z l]; cbn; [now rewrite andb_false_r|].
    rewrite andb_true_r. now rewrite andb_assoc. }
  rewrite E3.
  destruct (((x =? DOT) && (y =? CR))%N && match l with z :: _ => (z =? LF)%N | [] => false end) eqn:E.
  { apply andb_true_iff in E. destruct E as [E1 E2]. apply andb_true_iff in E1. destruct E1 as [E0 E1].
    apply N.eqb_eq in E0, E1. subst. destruct l as [|z l]; [discriminate|]. apply N.eqb_eq in E2. subst z.
    reflexivity. }
  assert (Hd : opt (dec CrLfPassed (x :: y :: l)) =
     consr (if (x =? DOT)%N then [y] else [x; y]) (W (x :: y :: l))).
  { rewrite W_dec. destruct (x =? DOT)%N eqn:Ex.
    - apply N.eqb_eq in Ex. subst x.
      assert (Ed : opt (dec CrLfPassed (DOT :: y :: l)) = opt (dec Running (y :: l))).
      { cbn [dec]. change (DOT =? CR)%N with false. change (DOT =? DOT)%N with true. cbn [andb] in E.
        cbn match. destruct l as [|z l].
        - cbn. destruct (y =? CR)%N; reflexivity.
        - cbn [andb] in E. rewrite E. reflexivity. }
      rewrite Ed. cbn [dec]. unfold st_of. change (DOT =? CR)%N with false. cbn [andb].
      destruct (y =? CR)%N; rewrite opt_cons1; reflexivity.
    - cbn [dec]. rewrite Ex. unfold st_of.
      destruct (x =? CR)%N eqn:Ec; destruct (y =? CR)%N eqn:Ey; rewrite !opt_cons1, ?consr_app;
        cbn [andb]; try reflexivity.
      destruct (y =? LF)%N; rewrite !opt_cons1, ?consr_app; reflexivity. }
  rewrite Hd. unfold W. set (P := fun z => beq z _).
  destruct (position_of P (windows 5 (x :: y :: l))) as [p|] eqn:Ep; [|reflexivity].
  pose proof (position_len _ 4 _ _ Ep) as L.
  assert (E2 : Nat.ltb (p + 2) 2 = false) by (apply Nat.ltb_ge; lia). rewrite E2.
  unfold slice_1_2, slice_to, slice_from.
  rewrite (proj2 (Nat.leb_le (p + 2) (length (x :: y :: l)))) by lia.
  rewrite (proj2 (Nat.leb_le (p + 5) (length (x :: y :: l)))) by lia.
  rewrite (proj2 (Nat.leb_le 2 (length (x :: y :: l)))) by lia.
  cbn [consr]. destruct (x =? DOT)%N; rewrite naive_push_app; reflexivity.
Qed.

Lemma unread_chunks data : unread (prep_new (src_of (map Chunk data))) = concat data.
Proof.
  unfold unread, src_bytes. cbn [prep_new pr_prepended pr_stream src_of src_events app].
  now rewrite map_map, map_id.
Qed.

Theorem stream_dec data : stream_result data = Some (opt (dec CrLfPassed (concat data))).
Proof.
  unfold stream_result. pose proof (ds_session_ok (prep_new (src_of (map Chunk data)))) as H.
  rewrite <- unread_chunks.
  destruct (ds_session _) as [[[items|] c] d']; [|destruct H].
  destruct H as (_ & _ & [(-> & Hd & _)|(-> & Hd & _)]); rewrite Hd; cbn [opt]; [|reflexivity].
  destruct (prep_read_all_ok (ds_source d')) as (later & p' & -> & Hc). now rewrite Hc.
Qed.

Lemma result_eqb_refl r : result_eqb r r = true.
Proof. destruct r as [[o x]|]; cbn; [now rewrite !beq_refl|reflexivity]. Qed.
Lemma result_eqb_eq a b : result_eqb a b = true -> a = b.
Proof.
  destruct a as [[o x]|], b as [[o' x']|]; cbn; try discriminate; [|reflexivity].
  intros H. apply andb_true_iff in H. destruct H as [H1 H2]. apply beq_eq in H1, H2. congruence.
Qed.
