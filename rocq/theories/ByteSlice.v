(** Model of smtp-message/src/byteslice.rs, and of the nom macros as they act on a
    [ByteSlice].  [None] is a panic.  [usize] is modelled by [nat]: a [Bytes] is
    shorter than 2^63, so the sums in [slice] do not overflow. *)
From Verif Require Import Bytes Nom.
Local Open Scope nat_scope.

(** byteslice.rs:10-16; [sl_addr] is the address of the [Bytes] referred to. *)
Record bslice := BSlice { sl_addr : nat; sl_buf : bytes; sl_start : nat; sl_end : nat }.
(** byteslice.rs:18-26 *)
Definition bs_from (addr : nat) (b : bytes) : bslice := BSlice addr b 0 (length b).
(** byteslice.rs:29-31; the subtraction panics in a debug build if it underflows,
    which [from] and [slice] never lead to. *)
Definition bs_len (b : bslice) : nat := sl_end b - sl_start b.
(** [&buf[i..j]] *)
Definition index (buf : bytes) (i j : nat) : option bytes :=
  if (i <=? j) && (j <=? length buf) then Some (firstn (j - i) (skipn i buf)) else None.
(** byteslice.rs:33-35, 37-39, 47-53 *)
Definition promote (b : bslice) : option bytes := index (sl_buf b) (sl_start b) (sl_end b).
Definition demote (b : bslice) : option bytes := index (sl_buf b) (sl_start b) (sl_end b).
(** byteslice.rs:55-60 *)
Definition bs_eq (a b : bslice) : bool :=
  (sl_start a =? sl_start b) && (sl_end a =? sl_end b) && (sl_addr a =? sl_addr b).
(** byteslice.rs:62-71 *)
Definition slice_range (b : bslice) (i j : nat) : option bslice :=
  if (i <=? j) && (j <=? sl_end b) then Some (BSlice (sl_addr b) (sl_buf b) (sl_start b + i) (sl_start b + j)) else None.
(** byteslice.rs:73-77, 79-83, 85-89 *)
Definition slice_to (b : bslice) (j : nat) : option bslice := slice_range b 0 j.
Definition slice_from (b : bslice) (i : nat) : option bslice := slice_range b i (sl_end b - sl_start b).
Definition slice_full (b : bslice) : bslice := b.
(** byteslice.rs:97-105: the elements, with their indices *)
Definition iter_elements (b : bslice) : option bytes := index (sl_buf b) (sl_start b) (sl_end b).
Definition iter_indices (b : bslice) : option (list (nat * N)) :=
  option_map (fun v => combine (seq 0 (length v)) v) (iter_elements b).
(** byteslice.rs:107-114; the outer [option] is a panic *)
Definition bs_position (b : bslice) (p : N -> bool) : option (option nat) :=
  option_map (position p) (index (sl_buf b) (sl_start b) (sl_end b)).
(** byteslice.rs:116-122 *)
Definition slice_index (b : bslice) (n : nat) : option nat := if n <=? sl_end b - sl_start b then Some n else None.
(** byteslice.rs:125-129 *)
Definition input_len (b : bslice) : nat := sl_end b - sl_start b.
(** byteslice.rs:131-142 *)
Definition bs_compare (eq : N -> N -> bool) (b : bslice) (t : bytes) : option cmp_result :=
  option_map (fun v => compare_with eq v t) (index (sl_buf b) (sl_start b) (sl_end b)).
(** byteslice.rs:144-151; [windows(n)] finds nothing in a shorter slice *)
Definition find_substring (b : bslice) (t : bytes) : option (option nat) :=
  option_map (find_sub t) (index (sl_buf b) (sl_start b) (sl_end b)).
(** nom's [Offset] on the dereferenced slices: the difference of the addresses of
    their first bytes. *)
Definition bs_offset (a b : bslice) : nat := sl_start b - sl_start a.

(** ** The macros of nom 3.2 on byte slices *)
Inductive bresult (A : Type) :=
| BDone (rest : bslice) (x : A) | BErr | BIncomplete | BPanic | BOutOfFuel.
Arguments BDone {A} _ _.
Arguments BErr {A}.
Arguments BIncomplete {A}.
Arguments BPanic {A}.
Arguments BOutOfFuel {A}.
Definition bparser (A : Type) := bslice -> bresult A.
Definition bbind {A B} (r : bresult A) (f : bslice -> A -> bresult B) : bresult B :=
  match r with BDone i x => f i x | BErr => BErr | BIncomplete => BIncomplete | BPanic => BPanic | BOutOfFuel => BOutOfFuel end.
(** [Done(i.slice(m..), i.slice(..n))] *)
Definition bsplit (m n : nat) (i : bslice) : bresult bslice :=
  match slice_from i m, slice_to i n with Some r, Some x => BDone r x | _, _ => BPanic end.

Definition b_tag_with (eq : N -> N -> bool) (t : bytes) : bparser bslice := fun i =>
  match bs_compare eq i t with
  | None => BPanic
  | Some CmpOk => bsplit (length t) (length t) i
  | Some CmpIncomplete => BIncomplete
  | Some CmpError => BErr
  end.
Definition b_one_of (set : bytes) : bparser N := fun i =>
  match iter_elements i with
  | None => BPanic
  | Some [] => BIncomplete
  | Some (c :: _) => if mem c set then match slice_from i 1 with Some r => BDone r c | None => BPanic end else BErr
  end.
Definition b_is_a (set : bytes) : bparser bslice := fun i =>
  match bs_position i (fun c => negb (mem c set)) with
  | None => BPanic
  | Some (Some 0) => BErr
  | Some (Some n) => bsplit n n i
  | Some None => match slice_from i (input_len i) with Some r => BDone r i | None => BPanic end
  end.
Definition b_eat_separator (set : bytes) : bparser bslice := fun i =>
  match bs_position i (fun c => negb (mem c set)) with
  | None => BPanic
  | Some (Some n) => bsplit n n i
  | Some None => match slice_from i (input_len i) with Some r => BDone r i | None => BPanic end
  end.
Definition b_take (n : nat) : bparser bslice := fun i =>
  match slice_index i n with Some k => bsplit k k i | None => BIncomplete end.
Definition b_take_until (sub : bytes) : bparser bslice := fun i =>
  if length sub <=? input_len i then
    match find_substring i sub with
    | None => BPanic
    | Some None => BErr
    | Some (Some n) => bsplit n n i
    end
  else BIncomplete.
Definition b_take_until_and_consume (sub : bytes) : bparser bslice := fun i =>
  if length sub <=? input_len i then
    match find_substring i sub with
    | None => BPanic
    | Some None => BErr
    | Some (Some n) => bsplit (n + length sub) n i
    end
  else BIncomplete.
Definition b_pmap {A B} (p : bparser A) (f : A -> B) : bparser B := fun i => bbind (p i) (fun r x => BDone r (f x)).
Definition b_map_res {A B} (p : bparser A) (f : A -> option B) : bparser B := fun i =>
  bbind (p i) (fun r x => match f x with Some y => BDone r y | None => BErr end).
Definition b_verify {A} (p : bparser A) (f : A -> bool) : bparser A := fun i =>
  bbind (p i) (fun r x => if f x then BDone r x else BErr).
Definition b_seq {A B} (p : bparser A) (q : A -> bparser B) : bparser B := fun i => bbind (p i) (fun r x => q x r).
Definition b_opt {A} (p : bparser A) : bparser (option A) := fun i =>
  match p i with BDone r x => BDone r (Some x) | BErr => BDone i None
  | BIncomplete => BIncomplete | BPanic => BPanic | BOutOfFuel => BOutOfFuel end.
Definition b_complete {A} (p : bparser A) : bparser A := fun i => match p i with BIncomplete => BErr | r => r end.
Definition b_alt {A} (p q : bparser A) : bparser A := fun i => match p i with BErr => q i | r => r end.
Definition b_recognize {A} (p : bparser A) : bparser bslice := fun i =>
  bbind (p i) (fun r _ => match slice_to i (bs_offset i r) with Some x => BDone r x | None => BPanic end).
Fixpoint b_sep_loop {A B} (fuel : nat) (sep : bparser A) (p : bparser B) (i : bslice) : bresult (list B) :=
  match fuel with
  | O => BOutOfFuel
  | S fuel' =>
      match sep i with
      | BErr => BDone i []
      | BIncomplete => BIncomplete
      | BPanic => BPanic
      | BOutOfFuel => BOutOfFuel
      | BDone i2 _ =>
          if bs_eq i2 i then BDone i []
          else match p i2 with
               | BErr => BDone i []
               | BIncomplete => BIncomplete
               | BPanic => BPanic
               | BOutOfFuel => BOutOfFuel
               | BDone i3 x => if bs_eq i3 i2 then BDone i [] else bbind (b_sep_loop fuel' sep p i3) (fun r xs => BDone r (x :: xs))
               end
      end
  end.
Definition b_separated_nonempty_list {A B} (sep : bparser A) (p : bparser B) : bparser (list B) := fun i =>
  bbind (p i) (fun r x =>
    if input_len r =? input_len i then BErr
    else bbind (b_sep_loop (S (input_len r)) sep p r) (fun r' xs => BDone r' (x :: xs))).
Definition b_separated_list {A B} (sep : bparser A) (p : bparser B) : bparser (list B) := fun i =>
  match p i with
  | BErr => BDone i []
  | BIncomplete => BIncomplete
  | BPanic => BPanic
  | BOutOfFuel => BOutOfFuel
  | BDone r x =>
    if input_len r =? input_len i then BErr
    else bbind (b_sep_loop (S (input_len r)) sep p r) (fun r' xs => BDone r' (x :: xs))
  end.
