(** The project's own fuzzing oracle for [DataStream]
    (smtp-message/fuzz/fuzz_targets/fuzz_data_parser.rs), modelled as it is
    written, panics included. *)
From Verif Require Import Bytes Stream.

(** [slice.windows(n)], [n > 0]. *)
Fixpoint windows (n : nat) (l : bytes) : list bytes :=
  match l with
  | [] => []
  | _ :: l' => if Nat.leb n (length l) then firstn n l :: windows n l' else []
  end.
(** [iter.position(p)] *)
Fixpoint position_of {A} (p : A -> bool) (l : list A) : option nat :=
  match l with
  | [] => None
  | x :: l' => if p x then Some 0 else option_map S (position_of p l')
  end.
(** Slice access [&l[..n]] and [&l[n..]]: [None] is the panic. *)
Definition slice_to (l : bytes) (n : nat) : option bytes :=
  if Nat.leb n (length l) then Some (firstn n l) else None.
Definition slice_from (l : bytes) (n : nat) : option bytes :=
  if Nat.leb n (length l) then Some (skipn n l) else None.
(** [&l[1..2]] *)
Definition slice_1_2 (l : bytes) : option bytes :=
  if Nat.leb 2 (length l) then Some (firstn 1 (skipn 1 l)) else None.

(** fuzz_data_parser.rs:35-45 *)
Definition naive_eof (raw : bytes) : option (nat * nat) :=
  match (if Nat.leb 3 (length raw) && beq (firstn 3 raw) (DOT :: CRLF) then Some (0, 3) else None) with
  | Some r => Some r
  | None =>
      match position_of (fun x => beq x (CRLF ++ [DOT] ++ CRLF)) (windows 5 raw) with
      | Some p => Some (p + 2, p + 5)
      | None => None
      end
  end.

(** The loop of fuzz_data_parser.rs:58-62; [w[2]] exists in a window of 3. *)
Fixpoint naive_push (out : bytes) (ws : list bytes) : bytes :=
  match ws with
  | [] => out
  | w :: ws' => naive_push (if beq w (CRLF ++ [DOT]) then out else out ++ [nth 2 w 0%N]) ws'
  end.

(** fuzz_data_parser.rs:46-65: [None] is a panic of the oracle itself,
    [Some None] means "not terminated". *)
Definition naive_result (raw : bytes) : option (option (bytes * bytes)) :=
  match naive_eof raw with
  | None => Some None
  | Some (eof, rem) =>
      if Nat.ltb eof 2 then
        match slice_to raw eof, slice_from raw rem with
        | Some a, Some b => Some (Some (a, b))
        | _, _ => None
        end
      else
        match raw with
        | [] => None
        | c :: _ =>
            match (if (c =? DOT)%N then slice_1_2 raw else slice_to raw 2), slice_to raw eof, slice_from raw rem with
            | Some out, Some upto, Some b => Some (Some (naive_push out (windows 3 upto), b))
            | _, _, _ => None
            end
        end
  end.

(** fuzz_data_parser.rs:14-29: what [DataStream] gives; [None] is a panic of
    [complete]. *)
Definition stream_result (data : list bytes) : option (option (bytes * bytes)) :=
  match ds_session (ds_new (prep_new (src_of (map Chunk data)))) with
  | (Some items, CompleteOk, d) =>
      match prep_read_all (ds_source d) with
      | (Some later, _) => Some (Some (concat items, concat later))
      | _ => None
      end
  | (Some _, CompleteErr, _) => Some None
  | _ => None
  end.

(** fuzz_data_parser.rs:9-69: the fuzz target; [false] is a crash (a panic, or the failed
    [assert_eq!] of line 68). *)
Definition result_eqb (a b : option (bytes * bytes)) : bool :=
  match a, b with
  | None, None => true
  | Some (o, r), Some (o', r') => beq o o' && beq r r'
  | _, _ => false
  end.
Definition fuzz_data_parser (data : list bytes) : bool :=
  match stream_result data, naive_result (concat data) with
  | Some a, Some b => result_eqb a b
  | _, _ => false
  end.
