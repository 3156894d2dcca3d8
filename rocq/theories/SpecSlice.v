(** Specification of byte slices, of parsers working on them, and of UTF-8. *)
From Verif Require Import Bytes Nom ByteSlice.
Local Open Scope nat_scope.

(** Bytes [i..j] of [v]. *)
Definition sub (v : bytes) (i j : nat) : bytes := firstn (j - i) (skipn i v).

(** [i'] is what is left of [i]. *)
Definition later (i i' : bslice) : Prop :=
  sl_addr i' = sl_addr i /\ sl_buf i' = sl_buf i /\ sl_end i' = sl_end i /\ sl_start i <= sl_start i' <= sl_end i.
(** The parsers [p] on slices and [q] on bytes agree: same outcome, results related
    by [R], no panic, and what is left of the slice are the bytes left. *)
Definition same_result {A B} (R : bslice -> A -> B -> Prop) (i : bslice) (r : bresult A) (s : iresult B) : Prop :=
  match r, s with
  | BDone i' x, Done v' y => later i i' /\ demote i' = Some v' /\ R i x y
  | BErr, Err | BIncomplete, Incomplete | BOutOfFuel, OutOfFuel => True
  | _, _ => False
  end.
Definition agree {A B} (R : bslice -> A -> B -> Prop) (p : bparser A) (q : parser B) : Prop :=
  forall i v, demote i = Some v -> same_result R i (p i) (q v).
(** A result that is a slice stands for its bytes. *)
Definition shows_bytes (i b : bslice) (v : bytes) : Prop := demote b = Some v.
Definition same {A} (i : bslice) (x y : A) : Prop := x = y.
(** Results that do not depend on where the parser started. *)
Definition still {A B} (R : bslice -> A -> B -> Prop) : Prop := forall i i' x y, later i i' -> R i' x y -> R i x y.

(** Unicode scalar values and their UTF-8 encodings (RFC 3629). *)
Definition scalar (c : N) : Prop := (c < 1114112 /\ ~ (55296 <= c <= 57343))%N.
Definition utf8_encode (c : N) : bytes :=
  (if c <? 128 then [c]
   else if c <? 2048 then [192 + c / 64; 128 + c mod 64]
   else if c <? 65536 then [224 + c / 4096; 128 + (c / 64) mod 64; 128 + c mod 64]
   else [240 + c / 262144; 128 + (c / 4096) mod 64; 128 + (c / 64) mod 64; 128 + c mod 64])%N.
