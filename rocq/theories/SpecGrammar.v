(** The command language, stated as a grammar: which byte strings are the text
    of a label, a domain, an address, ..., a command.  Independent of the
    parsers and their character sets (only the value types are shared). *)
From Verif Require Import Bytes Nom Ip Message SpecData.
From Verif Require Export SpecIp.

(** [s] is made of bytes of [set]. *)
Definition over_set (set s : bytes) : Prop := Forall (fun c => In c set) s.

(** Equality up to the case of ASCII letters. *)
Definition upper (c : N) : N := if (97 <=? c)%N && (c <=? 122)%N then (c - 32)%N else c.
Definition same_ci (a b : bytes) : Prop := map upper a = map upper b.

Definition blanks (s : bytes) : Prop := over_set [SP; TAB] s.
Definition blank (c : N) : Prop := c = SP \/ c = TAB.

(** ** Domains *)
Definition letter (c : N) : Prop := (65 <= c <= 90)%N \/ (97 <= c <= 122)%N.
Definition let_dig (c : N) : Prop := letter c \/ (48 <= c <= 57)%N.
(** A label: a letter or digit, then letters, digits and dashes. *)
Definition label_text (s : bytes) : Prop :=
  exists c s', s = c :: s' /\ let_dig c /\ Forall (fun x => let_dig x \/ x = 45%N) s'.
Definition host_text (s : bytes) : Prop :=
  exists ls, ls <> [] /\ Forall label_text ls /\ s = intercalate (s2b ".") ls.

Inductive domain_text : bytes -> domain -> Prop :=
| DT_host s : host_text s -> domain_text s (Host s)
| DT_v6 x a : ipv6_text x a -> domain_text (s2b "[IPv6:" ++ x ++ s2b "]") (Addr6 a)
| DT_v4 x a : ipv4_text x a -> domain_text (s2b "[" ++ x ++ s2b "]") (Addr4 a).

(** ** E-mail addresses *)
(** [atext] of RFC 5322, 3.2.3. *)
Definition atom_char (c : N) : Prop := let_dig c \/ In c (s2b "!#$%&'*+-/=?^_`{|}~").
Definition atom_text (s : bytes) : Prop := s <> [] /\ Forall atom_char s.
Definition dot_string_text (s : bytes) : Prop :=
  exists atoms, atoms <> [] /\ Forall atom_text atoms /\ s = intercalate (s2b ".") atoms.

Definition printable (c : N) : Prop := (32 <= c <= 126)%N.
(** One unit of a quoted string: a printable character other than quote and
    backslash, or a backslash and a printable character. *)
Inductive quoted_unit : bytes -> Prop :=
| QU_text c : printable c -> c <> QUOTE -> c <> BACKSLASH -> quoted_unit [c]
| QU_pair c : printable c -> quoted_unit [BACKSLASH; c].
Definition quoted_string_text (s : bytes) : Prop :=
  exists us, Forall quoted_unit us /\ s = [QUOTE] ++ concat us ++ [QUOTE].
Definition local_text (s : bytes) : Prop := quoted_string_text s \/ dot_string_text s.

Inductive email_text : bytes -> email -> Prop :=
| ET_local l : local_text l -> email_text l (Email l None)
| ET_at l t d : local_text l -> domain_text t d -> email_text (l ++ s2b "@" ++ t) (Email l (Some d)).

(** A source route [@a,@b,...:].  The list may be empty: a lone colon is
    accepted by the code. *)
Definition route_text (s : bytes) : Prop :=
  exists hops, Forall (fun h => exists t d, h = s2b "@" ++ t /\ domain_text t d) hops
               /\ s = intercalate (s2b ",") hops ++ s2b ":".
Inductive path_text : bytes -> email -> Prop :=
| PT_plain s e : email_text s e -> path_text s e
| PT_route r s e : route_text r -> email_text s e -> path_text (r ++ s) e.
Inductive maybe_bracketed_text : bytes -> email -> Prop :=
| BT_bracketed s e : path_text s e -> maybe_bracketed_text (s2b "<" ++ s ++ s2b ">") e
| BT_bare s e : path_text s e -> maybe_bracketed_text s e.

(** ** Parameters *)
(** [esmtp-value] of RFC 5321, 4.1.2: printable, neither space nor [=]. *)
Definition value_char (c : N) : Prop := (33 <= c <= 126)%N /\ c <> 61%N.
Inductive param_text : bytes -> bytes * option bytes -> Prop :=
| PmT_key w k : w <> [] -> blanks w -> label_text k -> param_text (w ++ k) (k, None)
| PmT_value w k v : w <> [] -> blanks w -> label_text k -> v <> [] -> Forall value_char v ->
    param_text (w ++ k ++ s2b "=" ++ v) (k, Some v).
(** The parameters as written, in order. *)
Definition param_list_text (s : bytes) (l : list (bytes * option bytes)) : Prop :=
  exists ss, Forall2 param_text ss l /\ s = concat ss.
(** [m] maps every key of [l] to the value of its last occurrence. *)
Fixpoint last_value (k : bytes) (l : list (bytes * option bytes)) : option (option bytes) :=
  match l with
  | [] => None
  | (k', v) :: l' => match last_value k l' with
                     | Some w => Some w
                     | None => if beq k k' then Some v else None
                     end
  end.
Definition last_wins (l : list (bytes * option bytes)) (m : parameters) : Prop :=
  NoDup (map fst m) /\ forall k, params_get k m = last_value k l.

(** ** Commands *)
(** Two commands are equal, parameters being compared as maps. *)
Inductive command_eq : command -> command -> Prop :=
| CE_refl c : command_eq c c
| CE_mail f m1 m2 : params_eq m1 m2 -> command_eq (Mail f m1) (Mail f m2)
| CE_rcpt t m1 m2 : params_eq m1 m2 -> command_eq (Rcpt t m1) (Rcpt t m2).

(** The argument of HELP and NOOP: one blank before it is dropped. *)
Definition opt_string_text (s arg : bytes) : Prop :=
  (exists c, blank c /\ s = c :: arg)
  \/ (s = arg /\ forall c s', arg = c :: s' -> ~ blank c).

Inductive command_text : bytes -> command -> Prop :=
| CT_data v w : same_ci v (s2b "DATA") -> blanks w -> command_text (v ++ w ++ CRLF) Data
| CT_quit v w : same_ci v (s2b "QUIT") -> blanks w -> command_text (v ++ w ++ CRLF) Quit
| CT_rset v w : same_ci v (s2b "RSET") -> blanks w -> command_text (v ++ w ++ CRLF) Rset
| CT_ehlo w0 v w1 t d w2 : blanks w0 -> same_ci v (s2b "EHLO") -> blanks w1 -> domain_text t d ->
    blanks w2 -> command_text (w0 ++ v ++ w1 ++ t ++ w2 ++ CRLF) (Ehlo d)
| CT_helo w0 v w1 t d w2 : blanks w0 -> same_ci v (s2b "HELO") -> blanks w1 -> domain_text t d ->
    blanks w2 -> command_text (w0 ++ v ++ w1 ++ t ++ w2 ++ CRLF) (Helo d)
| CT_expn v c s : same_ci v (s2b "EXPN") -> blank c -> is_line s ->
    command_text (v ++ [c] ++ s ++ CRLF) (Expn s)
| CT_vrfy v c s : same_ci v (s2b "VRFY") -> blank c -> is_line s ->
    command_text (v ++ [c] ++ s ++ CRLF) (Vrfy s)
| CT_help v s arg : same_ci v (s2b "HELP") -> opt_string_text s arg -> is_line arg ->
    command_text (v ++ s ++ CRLF) (Help arg)
| CT_noop v s arg : same_ci v (s2b "NOOP") -> opt_string_text s arg -> is_line arg ->
    command_text (v ++ s ++ CRLF) (Noop arg)
| CT_mail v w t e p l m w2 : same_ci v (s2b "MAIL FROM:") -> blanks w -> maybe_bracketed_text t e ->
    param_list_text p l -> last_wins l m -> blanks w2 ->
    command_text (v ++ w ++ t ++ p ++ w2 ++ CRLF) (Mail (Some e) m)
| CT_mail_null v w p l m w2 : same_ci v (s2b "MAIL FROM:") -> blanks w ->
    param_list_text p l -> last_wins l m -> blanks w2 ->
    command_text (v ++ w ++ s2b "<>" ++ p ++ w2 ++ CRLF) (Mail None m)
| CT_rcpt v w t e p l m w2 : same_ci v (s2b "RCPT TO:") -> blanks w -> maybe_bracketed_text t e ->
    param_list_text p l -> last_wins l m -> blanks w2 ->
    command_text (v ++ w ++ t ++ p ++ w2 ++ CRLF) (Rcpt e m).

(** ** Well-formed values (what the protocol lets a command carry) *)
Definition wf_domain (d : domain) : Prop :=
  match d with Host s => host_text s | Addr4 a => wf_ipv4 a | Addr6 a => wf_ipv6 a end.
Definition wf_email (e : email) : Prop :=
  local_text (em_localpart e) /\ match em_hostname e with Some d => wf_domain d | None => True end.
Definition wf_params (m : parameters) : Prop :=
  NoDup (map fst m) /\
  Forall (fun kv => label_text (fst kv) /\
            match snd kv with Some v => v <> [] /\ Forall value_char v | None => True end) m.
Definition wf_command (c : command) : Prop :=
  match c with
  | Data | Quit | Rset => True
  | Ehlo d | Helo d => wf_domain d
  | Expn s | Vrfy s | Help s | Noop s => is_line s
  | Mail f m => match f with Some e => wf_email e | None => True end /\ wf_params m
  | Rcpt t m => wf_email t /\ wf_params m
  end.

(** Exactly one line: CRLF at the end and nowhere else. *)
Definition one_line (b : bytes) : Prop := exists l, is_line l /\ b = l ++ CRLF.

(** The verbs, and the kind of a command. *)
Definition verbs : list bytes :=
  [s2b "DATA"; s2b "EHLO"; s2b "EXPN"; s2b "HELO"; s2b "HELP"; s2b "MAIL FROM:"; s2b "NOOP"; s2b "QUIT";
   s2b "RCPT TO:"; s2b "RSET"; s2b "VRFY"].
Definition verb_of (c : command) : bytes :=
  match c with
  | Data => s2b "DATA" | Ehlo _ => s2b "EHLO" | Expn _ => s2b "EXPN" | Helo _ => s2b "HELO"
  | Help _ => s2b "HELP" | Mail _ _ => s2b "MAIL FROM:" | Noop _ => s2b "NOOP" | Quit => s2b "QUIT"
  | Rcpt _ _ => s2b "RCPT TO:" | Rset => s2b "RSET" | Vrfy _ => s2b "VRFY"
  end.

(** ** Unquoting *)
(** [unescaped l u]: [u] is [l] with every backslash removed and the byte after
    it kept as it is. *)
Inductive unescaped : bytes -> bytes -> Prop :=
| U_nil : unescaped [] []
| U_dangling : unescaped [BACKSLASH] []
| U_plain c l u : c <> BACKSLASH -> unescaped l u -> unescaped (c :: l) (c :: u)
| U_pair c l u : unescaped l u -> unescaped (BACKSLASH :: c :: l) (c :: u).
(** The meaning of a local part: a dot-string means itself, a quoted string what
    its units stand for. *)
Inductive local_means : bytes -> bytes -> Prop :=
| LM_plain s : dot_string_text s -> local_means s s
| LM_quoted us : Forall quoted_unit us ->
    local_means ([QUOTE] ++ concat us ++ [QUOTE]) (map (fun u => last u 0%N) us).
