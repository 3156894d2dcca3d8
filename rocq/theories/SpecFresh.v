(** Specification of connections that carry several transactions. *)
From Coq Require Import List.
Import ListNotations.
From Verif Require Import Bytes Message Stream SpecData Interact SpecSession.

(** The bytes end with a line end. *)
Definition whole_lines (b : bytes) : Prop := b = [] \/ exists x, b = x ++ CRLF.

(** No message was cut, and every transaction that was begun (a MAIL that
    [filter_from] accepted) was ended by giving the mail to [handle_mail]. *)
Definition nothing_cut {U} (tr : list (obs U)) : Prop := forall u m text v, ~ In (OHandle u m text [false] v) tr.
Definition nothing_open {U} (tr : list (obs U)) : Prop := forall pre u a u' f post,
  tr = pre ++ OFrom u a Accept u' f :: post -> exists u1 m text cs v, In (OHandle u1 m text cs v) post.
Definition done {U} (b : bytes) (tr : list (obs U)) : Prop := whole_lines b /\ nothing_cut tr /\ nothing_open tr.

(** Each [b] is sent over a connection of its own, one after the other, the
    configuration and the connection's metadata handed on from one to the next;
    each is done in the end.  [afters]: what there is to see in each after the
    banner. *)
Inductive separately {C U W} (cfg : config C U) (wr : writer W) : C -> U -> list bytes -> list (list (obs U)) -> C -> U -> Prop :=
| sp_nil c u : separately cfg wr c u [] [] c u
| sp_cons c u b bs evs w o s banner after afters c' u' :
    carries evs b -> interact cfg wr (src_of evs) w c u = (o, s) ->
    st_trace s = banner ++ after -> says (cf_welcome_banner cfg c) banner -> done b (st_trace s) ->
    separately cfg wr (st_cfg s) (st_user s) bs afters c' u' ->
    separately cfg wr c u (b :: bs) (after :: afters) c' u'.
