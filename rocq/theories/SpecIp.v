(** The text of IP addresses, as a grammar (RFC 4291, 2.2; RFC 5321, 4.1.3): which
    byte strings denote which address.  Only the address types are shared with
    the model of the parsers. *)
From Verif Require Import Bytes Ip.
Local Open Scope N_scope.

(** [s1 sep s2 sep ... sn] *)
Fixpoint intercalate (sep : bytes) (l : list bytes) : bytes :=
  match l with
  | [] => []
  | [s] => s
  | s :: l' => s ++ sep ++ intercalate sep l'
  end.

(** Digits 0-9, a-f, A-F and their values. *)
Definition digit_value (c d : N) : Prop :=
  (48 <= c <= 57 /\ c = 48 + d) \/ (97 <= c <= 102 /\ c = 87 + d) \/ (65 <= c <= 70 /\ c = 55 + d).
(** [s] writes [v] in the base [base], leading zeros allowed. *)
Inductive numeral (base : N) : bytes -> N -> Prop :=
| nu_nil : numeral base [] 0
| nu_snoc s v c d : numeral base s v -> digit_value c d -> d < base -> numeral base (s ++ [c]) (v * base + d).

(** An octet: one to three decimal digits, below 256.  A group: one to four
    hexadecimal digits. *)
Definition octet_text (s : bytes) (v : N) : Prop := (1 <= length s <= 3)%nat /\ numeral 10 s v /\ v < 256.
Definition group_text (s : bytes) (v : N) : Prop := (1 <= length s <= 4)%nat /\ numeral 16 s v.

Inductive ipv4_text : bytes -> ipv4 -> Prop :=
| i4 s1 s2 s3 s4 a b c d : octet_text s1 a -> octet_text s2 b -> octet_text s3 c -> octet_text s4 d ->
    ipv4_text (intercalate (s2b ".") [s1; s2; s3; s4]) (a, b, c, d).

(** Groups separated by colons; an IPv4 address may stand for the last two. *)
Inductive groups_text : bytes -> list N -> Prop :=
| gt_groups ts gs : Forall2 group_text ts gs -> groups_text (intercalate (s2b ":") ts) gs
| gt_ipv4 ts gs s a b c d : Forall2 group_text ts gs -> ipv4_text s (a, b, c, d) ->
    groups_text (intercalate (s2b ":") (ts ++ [s])) (gs ++ [a * 256 + b; c * 256 + d]).
(** Eight groups; or fewer, with [::] standing for the missing zeros. *)
Inductive ipv6_text : bytes -> ipv6 -> Prop :=
| i6_full s gs : groups_text s gs -> length gs = 8%nat -> ipv6_text s gs
| i6_zeros ts hs s gs : Forall2 group_text ts hs -> groups_text s gs -> (length hs + length gs < 8)%nat ->
    ipv6_text (intercalate (s2b ":") ts ++ s2b "::" ++ s) (hs ++ repeat 0 (8 - (length hs + length gs)) ++ gs).
