(** Specification of the canonical text of an IP address: RFC 5952 for IPv6, decimal
    numbers without leading zeros for IPv4. *)
From Verif Require Import Bytes.
Local Open Scope N_scope.

(** [t] is the number [n] in base [base], in lower-case digits, the most
    significant one first, without leading zeros. *)
Definition digit (d : N) : N := nth (N.to_nat d) (s2b "0123456789abcdef") 0.
Definition numeral (base n : N) (t : bytes) : Prop :=
  exists ds, t = map digit ds /\ Forall (fun d => d < base) ds
  /\ fold_left (fun v d => v * base + d) ds 0 = n
  /\ (ds = [0] \/ exists d ds', ds = d :: ds' /\ d <> 0).

(** The texts [ts], with [sep] between them. *)
Fixpoint join (sep : bytes) (ts : list bytes) : bytes :=
  match ts with [] => [] | [t] => t | t :: ts' => t ++ sep ++ join sep ts' end.
Definition joined (base : N) (sep : bytes) (ns : list N) (t : bytes) : Prop :=
  exists ts, Forall2 (numeral base) ns ts /\ t = join sep ts.

(** Four decimal numbers. *)
Definition text4 (a b c d : N) (t : bytes) : Prop := joined 10 (s2b ".") [a; b; c; d] t.
Definition text4_of_groups (g h : N) (t : bytes) : Prop := text4 (g / 256) (g mod 256) (h / 256) (h mod 256) t.

(** The [k] zeros after [pre] are the first of the longest runs of zeros in [gs]. *)
Definition zeros (k : nat) : list N := repeat 0 k.
Definition first_longest_run (gs pre : list N) (k : nat) (post : list N) : Prop :=
  gs = pre ++ zeros k ++ post
  /\ forall pre' k' post', gs = pre' ++ zeros k' ++ post' ->
     (k' <= k /\ (k' = k -> length pre <= length pre'))%nat.

(** The address holds an IPv4 address in its last two groups. *)
Definition holds_ipv4 (gs : list N) : Prop :=
  exists g h, (gs = zeros 6 ++ [g; h] /\ (g <> 0 \/ 1 < h)) \/ gs = zeros 5 ++ [65535; g; h].
(** Eight groups in hexadecimal: the first longest run of two or more zeros is
    written "::".  Addresses that hold an IPv4 address (IPv4-compatible or IPv4-mapped,
    RFC 4291) end in its text. *)
Inductive text6 : list N -> bytes -> Prop :=
| text6_compatible g h t : (g <> 0 \/ 1 < h) -> text4_of_groups g h t ->
    text6 (zeros 6 ++ [g; h]) (s2b "::" ++ t)
| text6_mapped g h t : text4_of_groups g h t ->
    text6 (zeros 5 ++ [65535; g; h]) (s2b "::ffff:" ++ t)
| text6_plain gs t : ~ holds_ipv4 gs -> (forall pre post, gs <> pre ++ zeros 2 ++ post) ->
    joined 16 (s2b ":") gs t -> text6 gs t
| text6_shortened gs pre k post t t' : ~ holds_ipv4 gs -> first_longest_run gs pre k post -> (2 <= k)%nat ->
    joined 16 (s2b ":") pre t -> joined 16 (s2b ":") post t' -> text6 gs (t ++ s2b "::" ++ t').
