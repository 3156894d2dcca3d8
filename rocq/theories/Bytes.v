(** Byte strings.  A byte is an [N] (Rust [u8] values are the [N] below 256); a
    [Bytes]/[BytesMut]/[&[u8]] value is the list of its bytes.  Sharing and
    reference counting inside the [bytes] crate are not modelled. *)
From Coq Require Export String Ascii.
From Coq Require Export List NArith Lia Bool Arith.
Export ListNotations.

Notation byte := N (only parsing).
Notation bytes := (list N).

(** Rust byte-string literals [b"..."]. *)
Fixpoint s2b (s : string) : bytes :=
  match s with
  | EmptyString => []
  | String c s' => N_of_ascii c :: s2b s'
  end.
Arguments s2b s%string_scope.

Definition CR : N := 13%N.
Definition LF : N := 10%N.
Definition DOT : N := 46%N.
Definition SP : N := 32%N.
Definition TAB : N := 9%N.
Definition QUOTE : N := 34%N.
Definition BACKSLASH : N := 92%N.
Definition CRLF : bytes := [CR; LF].

(** [slice.contains(&c)] / nom's [c.find_token(set)]. *)
Definition mem (c : N) (s : bytes) : bool := existsb (N.eqb c) s.

(** Byte string equality [a == b]. *)
Fixpoint beq (a b : bytes) : bool :=
  match a, b with
  | [], [] => true
  | x :: a', y :: b' => N.eqb x y && beq a' b'
  | _, _ => false
  end.

(** Does [i] start with [t]? *)
Fixpoint prefixb (t i : bytes) : bool :=
  match t, i with
  | [], _ => true
  | _ :: _, [] => false
  | a :: t', b :: i' => N.eqb a b && prefixb t' i'
  end.

(** Index of the first occurrence of [sub] in [i]
    ([windows(n).position(|w| w == sub)]). *)
Fixpoint find_sub (sub i : bytes) : option nat :=
  if prefixb sub i then Some 0
  else match i with
       | [] => None
       | _ :: i' => option_map S (find_sub sub i')
       end.

(** [iter().position(p)] *)
Fixpoint position (p : N -> bool) (i : bytes) : option nat :=
  match i with
  | [] => None
  | c :: i' => if p c then Some 0 else option_map S (position p i')
  end.

(** Longest prefix whose bytes all satisfy [p], and the rest. *)
Fixpoint span (p : N -> bool) (i : bytes) : bytes * bytes :=
  match i with
  | [] => ([], [])
  | c :: i' => if p c then let '(a, r) := span p i' in (c :: a, r) else ([], i)
  end.
