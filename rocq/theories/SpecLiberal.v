(** A receiver of messages that is more liberal than RFC 5321: a line feed ends a line, with
    or without a carriage return before it. *)
From Verif Require Import Bytes SpecData.

(** Lines as such a receiver sees them; a carriage return before the line feed is still there. *)
Definition lf_line (l : bytes) : Prop := ~ In LF l.
Definition lf_lines (ls : list bytes) : bytes := concat (map (fun l => l ++ [LF]) ls).
(** A dot alone on its line ends the message. *)
Definition liberal_end (l : bytes) : Prop := l = [DOT] \/ l = [DOT; CR].
(** From [wire] such a receiver takes the lines [ls] as the message; [rest] it takes for what
    comes next: commands. *)
Definition liberal_transfer (wire : bytes) (ls : list bytes) (rest : bytes) : Prop :=
  exists e, Forall lf_line ls /\ Forall (fun l => ~ liberal_end l) ls /\ liberal_end e
    /\ wire = lf_lines ls ++ e ++ [LF] ++ rest.
(** The text it makes of the lines: the carriage return and one leading dot are removed. *)
Fixpoint strip_cr (l : bytes) : bytes :=
  match l with
  | [] => []
  | c :: l' => match l' with [] => if (c =? CR)%N then [] else [c] | _ => c :: strip_cr l' end
  end.
Definition liberal_text (ls : list bytes) : bytes := unlines (map (fun l => dot_unstuff (strip_cr l)) ls).

Definition ends_with_cr (a : bytes) : Prop := exists a', a = a' ++ [CR].
(** [m] has, after a line feed that has no carriage return, a dot alone on its line. *)
Definition hidden_end (m : bytes) : Prop :=
  exists a b c, m = a ++ [LF; DOT] ++ b /\ ~ ends_with_cr a /\ (b = LF :: c \/ b = CRLF ++ c).
(** Every line feed of [m] has its carriage return. *)
Definition no_bare_lf (m : bytes) : Prop := forall a b, m = a ++ LF :: b -> ends_with_cr a.
