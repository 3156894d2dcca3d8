(** Specification of SMTP replies (RFC 5321, 4.2), independent of the model. *)
From Verif Require Import Bytes.
Local Open Scope N_scope.

(** Tab or printable ASCII. *)
Definition printable (c : N) : Prop := c = 9 \/ (32 <= c /\ c <= 126).

(** [ds] is the decimal writing of [code] on three digits. *)
Definition three_digits (code : N) (ds : bytes) : Prop :=
  exists a b c, a < 10 /\ b < 10 /\ c < 10 /\ code = 100 * a + 10 * b + c
  /\ ds = [48 + a; 48 + b; 48 + c].

(** A reply line on the wire. *)
Definition reply_on_wire (code : N) (last : bool) (text wire : bytes) : Prop :=
  exists ds, three_digits code ds /\ wire = ds ++ [if last then 32 else 45] ++ text ++ CRLF.

(** [s] cut into non-empty pieces of [n] bytes, the last one possibly shorter. *)
Inductive chunked (n : nat) : bytes -> list bytes -> Prop :=
| chunked_nil : chunked n [] []
| chunked_last p : (1 <= length p <= n)%nat -> chunked n p [p]
| chunked_more p s ps : length p = n -> s <> [] -> chunked n s ps -> chunked n (p ++ s) (p :: ps).

(** The lines of a (multi-line) reply carrying the texts [ts]: continuation lines
    with a dash, then a last line with a space. *)
Inductive reply_lines (code : N) : list bytes -> list bytes -> Prop :=
| reply_lines_none : reply_lines code [] []
| reply_lines_last t w : reply_on_wire code true t w -> reply_lines code [t] [w]
| reply_lines_more t t' ts w ws :
    reply_on_wire code false t w -> reply_lines code (t' :: ts) ws ->
    reply_lines code (t :: t' :: ts) (w :: ws).

(** [ws] is the reply [code text], sent in lines of at most 512 bytes. *)
Definition full_reply (code : N) (text : bytes) (ws : list bytes) : Prop :=
  exists ts, chunked 506 text ts /\ reply_lines code ts ws.
