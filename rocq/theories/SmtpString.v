(** Model of smtp-message/src/smtpstring.rs.  An [SmtpString] is its bytes. *)
From Verif Require Import Bytes.

(** 64-bit [usize]. *)
Definition usize_max_plus_1 : N := 18446744073709551616%N.
Definition usize (n : N) : N := (n mod usize_max_plus_1)%N.

(** [Bytes::slice(begin, end)] (bytes 0.4): panics ([None]) unless
    [begin <= end <= len]. *)
Definition bytes_slice (s : bytes) (b e : N) : option bytes :=
  if (b <=? e)%N && (e <=? N.of_nat (length s))%N
  then Some (firstn (N.to_nat (e - b)) (skipn (N.to_nat b) s))
  else None.

(** Collect, failing (panicking) on the first failure. *)
Fixpoint sequence {A} (l : list (option A)) : option (list A) :=
  match l with
  | [] => Some []
  | None :: _ => None
  | Some x :: l' => option_map (cons x) (sequence l')
  end.

(** Number of chunks, [(self.byte_len() + bytes - 1) / bytes]
    (smtpstring.rs:64), in wrapping (release build) [usize] arithmetic.  A debug
    build panics when the addition or subtraction wraps. *)
Definition byte_chunks_count (len n : N) : N :=
  (usize (usize (len + n) + usize_max_plus_1 - 1) / n)%N.

(** [byte_chunks] (smtpstring.rs:62-66).  [None] is a panic: division by zero or
    an out of range [slice].  The iterator is lazy in Rust; here it is forced. *)
Definition byte_chunks (s : bytes) (n : N) : option (list bytes) :=
  if (n =? 0)%N then None
  else
    let len := N.of_nat (length s) in
    let count := byte_chunks_count len n in
    sequence
      (map (fun k => let i := N.of_nat k in
                     bytes_slice s (usize (i * n)) (N.min len (usize ((i + 1) * n))))
           (seq 0 (N.to_nat count))).

(** [impl Add] (smtpstring.rs:76-83) *)
Definition smtp_add (a b : bytes) : bytes := a ++ b.

(** [SmtpString::byte] (smtpstring.rs:54-56); [None] is an index panic. *)
Definition smtp_byte (s : bytes) (pos : nat) : option N := nth_error s pos.
