(** Model of the nom 3.2 combinators used by smtp-message
    (smtp-message/Cargo.toml:16 [nom = "3.2"]; the macros are external, they are
    modelled from the documented 3.2 behaviour).

    Simplifications: the input is the list of remaining bytes instead of a
    [ByteSlice] (see ByteSlice.v for the correspondence); the [ErrorKind] of an
    error and the [Needed] count of an incomplete are dropped. *)
From Verif Require Import Bytes.

(** nom [IResult<ByteSlice, O>]; [OutOfFuel] does not exist in nom: it marks
    exhaustion of the fuel of a loop (shown never to happen). *)
Inductive iresult (A : Type) : Type :=
| Done (rest : bytes) (x : A)
| Err
| Incomplete
| OutOfFuel.
Arguments Done {A} _ _.
Arguments Err {A}.
Arguments Incomplete {A}.
Arguments OutOfFuel {A}.

Definition parser (A : Type) := bytes -> iresult A.

(** Sequencing, as [do_parse!] does it: [Error] and [Incomplete] propagate. *)
Definition bind {A B} (r : iresult A) (f : bytes -> A -> iresult B) : iresult B :=
  match r with
  | Done i x => f i x
  | Err => Err
  | Incomplete => Incomplete
  | OutOfFuel => OutOfFuel
  end.

(** nom [CompareResult] *)
Inductive cmp_result := CmpOk | CmpIncomplete | CmpError.

(** [Compare for &[u8]]: compare the common length, then check the length
    (byteslice.rs:124-137 forwards to it). *)
Fixpoint compare_with (eq : N -> N -> bool) (i t : bytes) : cmp_result :=
  match t with
  | [] => CmpOk
  | b :: t' =>
      match i with
      | [] => CmpIncomplete
      | a :: i' => if eq a b then compare_with eq i' t' else CmpError
      end
  end.

Definition in_range (lo hi c : N) : bool := N.leb lo c && N.leb c hi.
Definition is_letter (c : N) : bool := in_range 65 90 c || in_range 97 122 c.
(** nom's [compare_no_case] byte comparison: letters are compared after
    setting bit 5, other bytes must be equal. *)
Definition eq_no_case (a b : N) : bool :=
  if is_letter a && is_letter b then N.eqb (N.lor a 32) (N.lor b 32)
  else if is_letter a || is_letter b then false
  else N.eqb a b.

Definition tag_with (eq : N -> N -> bool) (t : bytes) : parser bytes := fun i =>
  match compare_with eq i t with
  | CmpOk => Done (skipn (length t) i) (firstn (length t) i)
  | CmpIncomplete => Incomplete
  | CmpError => Err
  end.
(** [tag!(t)] *)
Definition tag (t : bytes) : parser bytes := tag_with N.eqb t.
(** [tag_no_case!(t)] *)
Definition tag_no_case (t : bytes) : parser bytes := tag_with eq_no_case t.
(** [nom::crlf] *)
Definition crlf : parser bytes := tag CRLF.

(** [one_of!(set)] *)
Definition one_of (set : bytes) : parser N := fun i =>
  match i with
  | [] => Incomplete
  | c :: i' => if mem c set then Done i' c else Err
  end.

(** [is_a!(set)]: longest non-empty run; on an empty input nom 3.2 takes the
    [None] branch of [position] and returns the (empty) input. *)
Definition is_a (set : bytes) : parser bytes := fun i =>
  match span (fun c => mem c set) i with
  | ([], _ :: _) => Err
  | (a, r) => Done r a
  end.

(** [eat_separator!(set)] *)
Definition eat_separator (set : bytes) : parser bytes := fun i =>
  let '(a, r) := span (fun c => mem c set) i in Done r a.

(** [take!(n)] *)
Definition take (n : nat) : parser bytes := fun i =>
  if Nat.leb n (length i) then Done (skipn n i) (firstn n i) else Incomplete.

(** [take_until!(sub)] *)
Definition take_until (sub : bytes) : parser bytes := fun i =>
  if Nat.ltb (length i) (length sub) then Incomplete
  else match find_sub sub i with
       | None => Err
       | Some n => Done (skipn n i) (firstn n i)
       end.
(** [take_until_and_consume!(sub)] *)
Definition take_until_and_consume (sub : bytes) : parser bytes := fun i =>
  if Nat.ltb (length i) (length sub) then Incomplete
  else match find_sub sub i with
       | None => Err
       | Some n => Done (skipn (n + length sub) i) (firstn n i)
       end.

(** [map!] *)
Definition pmap {A B} (p : parser A) (f : A -> B) : parser B := fun i =>
  bind (p i) (fun r x => Done r (f x)).
(** [map_res!]; [None] is the [Err] of the closure. *)
Definition map_res {A B} (p : parser A) (f : A -> option B) : parser B := fun i =>
  bind (p i) (fun r x => match f x with Some y => Done r y | None => Err end).
(** [verify!] *)
Definition verify {A} (p : parser A) (f : A -> bool) : parser A := fun i =>
  bind (p i) (fun r x => if f x then Done r x else Err).
(** [preceded!] *)
Definition preceded {A B} (p : parser A) (q : parser B) : parser B := fun i =>
  bind (p i) (fun r _ => q r).
(** [opt!]: [Error] becomes [None] without consuming; [Incomplete] propagates. *)
Definition opt {A} (p : parser A) : parser (option A) := fun i =>
  match p i with
  | Done r x => Done r (Some x)
  | Err => Done i None
  | Incomplete => Incomplete
  | OutOfFuel => OutOfFuel
  end.
(** [complete!] *)
Definition complete {A} (p : parser A) : parser A := fun i =>
  match p i with Incomplete => Err | r => r end.
(** [alt!(p | q)]: the second alternative is tried only on [Error]. *)
Definition alt {A} (p q : parser A) : parser A := fun i =>
  match p i with Err => q i | r => r end.
(** [recognize!]: the consumed prefix. *)
Definition recognize {A} (p : parser A) : parser bytes := fun i =>
  bind (p i) (fun r _ => Done r (firstn (length i - length r) i)).

(** [many0!]: stops on an empty input or on [Error]; a pass that consumes
    nothing is an error.  [ByteSlice] equality (byteslice.rs:55-60) of two
    suffixes of one buffer is equality of lengths. *)
Fixpoint many0_loop {A} (fuel : nat) (p : parser A) (i : bytes) : iresult (list A) :=
  match fuel with
  | O => OutOfFuel
  | S fuel' =>
      match i with
      | [] => Done [] []
      | _ :: _ =>
          match p i with
          | Err => Done i []
          | Incomplete => Incomplete
          | OutOfFuel => OutOfFuel
          | Done i' x =>
              if Nat.eqb (length i') (length i) then Err
              else bind (many0_loop fuel' p i') (fun r xs => Done r (x :: xs))
          end
      end
  end.
Definition many0 {A} (p : parser A) : parser (list A) := fun i =>
  many0_loop (S (length i)) p i.

(** The loop of [separated_list!] / [separated_nonempty_list!] after the first
    element: a separator followed by an element, or stop before the separator. *)
Fixpoint sep_loop {A B} (fuel : nat) (sep : parser A) (p : parser B) (i : bytes)
  : iresult (list B) :=
  match fuel with
  | O => OutOfFuel
  | S fuel' =>
      match sep i with
      | Err => Done i []
      | Incomplete => Incomplete
      | OutOfFuel => OutOfFuel
      | Done i2 _ =>
          if Nat.eqb (length i2) (length i) then Done i []
          else match p i2 with
               | Err => Done i []
               | Incomplete => Incomplete
               | OutOfFuel => OutOfFuel
               | Done i3 x =>
                   if Nat.eqb (length i3) (length i2) then Done i []
                   else bind (sep_loop fuel' sep p i3) (fun r xs => Done r (x :: xs))
               end
      end
  end.
(** [separated_nonempty_list!] *)
Definition separated_nonempty_list {A B} (sep : parser A) (p : parser B) : parser (list B) :=
  fun i =>
  bind (p i) (fun r x =>
    if Nat.eqb (length r) (length i) then Err
    else bind (sep_loop (S (length r)) sep p r) (fun r' xs => Done r' (x :: xs))).
(** [separated_nonempty_list_complete!] wraps both parsers in [complete!]. *)
Definition separated_nonempty_list_complete {A B} (sep : parser A) (p : parser B)
  : parser (list B) :=
  separated_nonempty_list (complete sep) (complete p).
(** [separated_list!]: an [Error] of the first element gives the empty list. *)
Definition separated_list {A B} (sep : parser A) (p : parser B) : parser (list B) :=
  fun i =>
  match p i with
  | Err => Done i []
  | Incomplete => Incomplete
  | OutOfFuel => OutOfFuel
  | Done r x =>
    if Nat.eqb (length r) (length i) then Err
    else bind (sep_loop (S (length r)) sep p r) (fun r' xs => Done r' (x :: xs))
  end.

(** [nom_to_result] (smtp-message/src/parseresult.rs:13-25) *)
Inductive presult (A : Type) : Type :=
| POk (x : A)
| PDidNotConsumeEverything (n : nat)
| PParseError
| PIncompleteString
| POutOfFuel.
Arguments POk {A} _.
Arguments PDidNotConsumeEverything {A} _.
Arguments PParseError {A}.
Arguments PIncompleteString {A}.
Arguments POutOfFuel {A}.

Definition nom_to_result {A} (d : iresult A) : presult A :=
  match d with
  | Done rem res =>
      if Nat.eqb (length rem) 0 then POk res
      else PDidNotConsumeEverything (length rem)
  | Err => PParseError
  | Incomplete => PIncompleteString
  | OutOfFuel => POutOfFuel
  end.
