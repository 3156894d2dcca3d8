(** The command and reply lines of RFC 5321 (4.1.1, 4.1.2, 4.1.3, 4.2), and what
    they mean.  ABNF strings are case-insensitive ([ci]).  Shared with SpecGrammar:
    the characters ([let_dig], [atom_char], [value_char], [quoted_unit]) and the
    dotted and hexadecimal numbers of SpecIp.

    Left out: [General-address-literal] ("[tag:anything]"), which stands for no
    address known to the library, and the case-insensitivity of the tag "IPv6:";
    PropRfc.v shows that the library refuses both. *)
From Verif Require Import Bytes Nom Ip Message Reply SpecData SpecGrammar.

Definition ci (word s : bytes) : Prop := same_ci s word.

(** [sub-domain = Let-dig [Ldh-str]]: letters, digits and dashes, no dash at
    either end.  [Domain = sub-domain *("." sub-domain)] *)
Definition sub_domain (s : bytes) : Prop :=
  Forall (fun c => let_dig c \/ c = 45%N) s
  /\ (exists c s', s = c :: s' /\ let_dig c) /\ (exists s' c, s = s' ++ [c] /\ let_dig c).
Definition rfc_domain (s : bytes) : Prop :=
  exists l, l <> [] /\ Forall sub_domain l /\ s = intercalate (s2b ".") l.

(** [IPv6-full], [IPv6-comp], [IPv6v4-full], [IPv6v4-comp] *)
Definition hex_groups (ts : list bytes) (gs : list N) : Prop := Forall2 group_text ts gs.
Inductive rfc_ipv6 : bytes -> list N -> Prop :=
| r6_full ts gs : hex_groups ts gs -> length gs = 8 -> rfc_ipv6 (intercalate (s2b ":") ts) gs
| r6_comp ts hs ts' gs : hex_groups ts hs -> hex_groups ts' gs -> length hs + length gs <= 6 ->
    rfc_ipv6 (intercalate (s2b ":") ts ++ s2b "::" ++ intercalate (s2b ":") ts')
             (hs ++ repeat 0%N (8 - (length hs + length gs)) ++ gs)
| r6_v4_full ts gs s a b c d : hex_groups ts gs -> length gs = 6 -> ipv4_text s (a, b, c, d) ->
    rfc_ipv6 (intercalate (s2b ":") ts ++ s2b ":" ++ s) (gs ++ [a * 256 + b; c * 256 + d]%N)
| r6_v4_comp ts hs ts' gs s a b c d : hex_groups ts hs -> hex_groups ts' gs -> length hs + length gs <= 4 ->
    ipv4_text s (a, b, c, d) ->
    rfc_ipv6 (intercalate (s2b ":") ts ++ s2b "::" ++ intercalate (s2b ":") (ts' ++ [s]))
             (hs ++ repeat 0%N (6 - (length hs + length gs)) ++ gs ++ [a * 256 + b; c * 256 + d]%N).
Inductive address_literal : bytes -> domain -> Prop :=
| al_v4 x a : ipv4_text x a -> address_literal (s2b "[" ++ x ++ s2b "]") (Addr4 a)
| al_v6 x a : rfc_ipv6 x a -> address_literal (s2b "[IPv6:" ++ x ++ s2b "]") (Addr6 a).
Definition domain_or_literal (s : bytes) (d : domain) : Prop :=
  (rfc_domain s /\ d = Host s) \/ address_literal s d.

(** [Atom], [Dot-string], [Quoted-string], [Local-part], [Mailbox], [String] *)
Definition atom (s : bytes) : Prop := s <> [] /\ Forall atom_char s.
Definition dot_string (s : bytes) : Prop :=
  exists l, l <> [] /\ Forall atom l /\ s = intercalate (s2b ".") l.
Definition quoted_string (s : bytes) : Prop :=
  exists us, Forall quoted_unit us /\ s = [QUOTE] ++ concat us ++ [QUOTE].
Definition local_part (s : bytes) : Prop := dot_string s \/ quoted_string s.
Inductive mailbox : bytes -> email -> Prop :=
| mb l t d : local_part l -> domain_or_literal t d -> mailbox (l ++ s2b "@" ++ t) (Email l (Some d)).
Definition rfc_string (s : bytes) : Prop := atom s \/ quoted_string s.

(** [Path = "<" [ A-d-l ":" ] Mailbox ">"]; the route is to be ignored. *)
Inductive path : bytes -> email -> Prop :=
| pa_plain s e : mailbox s e -> path (s2b "<" ++ s ++ s2b ">") e
| pa_route hops s e : hops <> [] -> Forall rfc_domain hops -> mailbox s e ->
    path (s2b "<" ++ intercalate (s2b ",") (map (fun h => s2b "@" ++ h) hops) ++ s2b ":" ++ s ++ s2b ">") e.
Inductive reverse_path : bytes -> option email -> Prop :=
| rp_null : reverse_path (s2b "<>") None
| rp_path s e : path s e -> reverse_path s (Some e).
Inductive recipient : bytes -> email -> Prop :=
| rc_postmaster s : ci (s2b "Postmaster") s -> recipient (s2b "<" ++ s ++ s2b ">") (Email s None)
| rc_path s e : path s e -> recipient s e.

(** [esmtp-keyword], [esmtp-param], [Mail-parameters]: no keyword twice. *)
Definition keyword (s : bytes) : Prop :=
  exists c s', s = c :: s' /\ let_dig c /\ Forall (fun x => let_dig x \/ x = 45%N) s'.
Inductive esmtp_param : bytes -> bytes * option bytes -> Prop :=
| ep_flag k : keyword k -> esmtp_param k (k, None)
| ep_value k v : keyword k -> v <> [] -> Forall value_char v -> esmtp_param (k ++ s2b "=" ++ v) (k, Some v).
Definition mail_parameters (s : bytes) (m : parameters) : Prop :=
  exists ps, Forall2 esmtp_param ps m /\ NoDup (map fst m) /\ s = concat (map (fun p => s2b " " ++ p) ps).

(** Command lines.  White space before CRLF is to be tolerated (4.1.1). *)
Inductive rfc_command : bytes -> command -> Prop :=
| rfc_ehlo v t d w : ci (s2b "EHLO") v -> domain_or_literal t d -> blanks w ->
    rfc_command (v ++ s2b " " ++ t ++ w ++ CRLF) (Ehlo d)
| rfc_helo v t w : ci (s2b "HELO") v -> rfc_domain t -> blanks w ->
    rfc_command (v ++ s2b " " ++ t ++ w ++ CRLF) (Helo (Host t))
| rfc_mail v t f p m w : ci (s2b "MAIL FROM:") v -> reverse_path t f -> mail_parameters p m -> blanks w ->
    rfc_command (v ++ t ++ p ++ w ++ CRLF) (Mail f m)
| rfc_rcpt v t e p m w : ci (s2b "RCPT TO:") v -> recipient t e -> mail_parameters p m -> blanks w ->
    rfc_command (v ++ t ++ p ++ w ++ CRLF) (Rcpt e m)
| rfc_data v w : ci (s2b "DATA") v -> blanks w -> rfc_command (v ++ w ++ CRLF) Data
| rfc_rset v w : ci (s2b "RSET") v -> blanks w -> rfc_command (v ++ w ++ CRLF) Rset
| rfc_quit v w : ci (s2b "QUIT") v -> blanks w -> rfc_command (v ++ w ++ CRLF) Quit
| rfc_vrfy v s : ci (s2b "VRFY") v -> rfc_string s -> rfc_command (v ++ s2b " " ++ s ++ CRLF) (Vrfy s)
| rfc_expn v s : ci (s2b "EXPN") v -> rfc_string s -> rfc_command (v ++ s2b " " ++ s ++ CRLF) (Expn s)
| rfc_help v s : ci (s2b "HELP") v -> rfc_string s -> rfc_command (v ++ s2b " " ++ s ++ CRLF) (Help s)
| rfc_help_bare v : ci (s2b "HELP") v -> rfc_command (v ++ CRLF) (Help [])
| rfc_noop v s : ci (s2b "NOOP") v -> rfc_string s -> rfc_command (v ++ s2b " " ++ s ++ CRLF) (Noop s)
| rfc_noop_bare v : ci (s2b "NOOP") v -> rfc_command (v ++ CRLF) (Noop []).

(** Reply lines: [Reply-code] is %x32-35 %x30-35 %x30-39, [textstring] printable
    bytes and tabs.  Left out: a last line without text may lack the space. *)
Inductive rfc_reply_line : bytes -> reply_line -> Prop :=
| rfc_rl a b c last t : (2 <= a <= 5)%N -> (b <= 5)%N -> (c <= 9)%N ->
    Forall (fun x => x = 9%N \/ (32 <= x <= 126)%N) t ->
    rfc_reply_line ([48 + a; 48 + b; 48 + c]%N ++ [if last : bool then 32%N else 45%N] ++ t ++ CRLF)
                   (ReplyLine (100 * a + 10 * b + c) last t).
