(** The parsers of [Nom.v], [Message.v] and [Reply.v] once more, counting how often they
    look at a byte of the input.  [C74_counting] shows that counting changes nothing.

    What counts as one: a byte compared by [tag!], [tag_no_case!], [one_of!], [is_a!],
    [eat_separator!]; a byte compared with a byte of the searched string, at each position
    that [take_until!] tries; a call of a [verify!] closure (it looks at one value); a byte of the text given to a [map_res!]
    closure ([into_utf8] and the number parsers go through it).  Not counted: copying of
    slices (they are reference-counted), the insertions into the parameters' [HashMap]. *)
From Verif Require Import Bytes Nom Ip Message Reply.

(** A result together with a count. *)
Definition counted (A : Type) : Type := (iresult A * nat)%type.
Definition cparser (A : Type) := bytes -> counted A.

(** [bind] of Nom.v: the counts add up. *)
Definition cbind {A B} (r : counted A) (f : bytes -> A -> counted B) : counted B :=
  match r with
  | (Done i x, n) => let '(r', m) := f i x in (r', n + m)
  | (Err, n) => (Err, n)
  | (Incomplete, n) => (Incomplete, n)
  | (OutOfFuel, n) => (OutOfFuel, n)
  end.
(** A result that cost nothing. *)
Definition cret {A} (r : iresult A) : counted A := (r, 0).

(** [Compare for &[u8]] (byteslice.rs:124-137), with the number of bytes compared. *)
Fixpoint compare_counted (eq : N -> N -> bool) (i t : bytes) : cmp_result * nat :=
  match t with
  | [] => (CmpOk, 0)
  | b :: t' =>
      match i with
      | [] => (CmpIncomplete, 0)
      | a :: i' => if eq a b then let '(r, n) := compare_counted eq i' t' in (r, S n)
                   else (CmpError, 1)
      end
  end.
(** [tag!(t)], [tag_no_case!(t)] *)
Definition ctag_with (eq : N -> N -> bool) (t : bytes) : cparser bytes := fun i =>
  match compare_counted eq i t with
  | (CmpOk, n) => (Done (skipn (length t) i) (firstn (length t) i), n)
  | (CmpIncomplete, n) => (Incomplete, n)
  | (CmpError, n) => (Err, n)
  end.
Definition ctag (t : bytes) : cparser bytes := ctag_with N.eqb t.
Definition ctag_no_case (t : bytes) : cparser bytes := ctag_with eq_no_case t.

(** [one_of!(set)] *)
Definition cone_of (set : bytes) : cparser N := fun i =>
  match i with
  | [] => (Incomplete, 0)
  | c :: i' => (if mem c set then Done i' c else Err, 1)
  end.

(** [span] of Bytes.v, with the number of bytes tested. *)
Fixpoint span_counted (p : N -> bool) (i : bytes) : bytes * bytes * nat :=
  match i with
  | [] => ([], [], 0)
  | c :: i' => if p c then let '(a, r, n) := span_counted p i' in (c :: a, r, S n) else ([], i, 1)
  end.
(** [is_a!(set)] *)
Definition cis_a (set : bytes) : cparser bytes := fun i =>
  match span_counted (fun c => mem c set) i with
  | ([], _ :: _, n) => (Err, n)
  | (a, r, n) => (Done r a, n)
  end.
(** [eat_separator!(set)] *)
Definition ceat_separator (set : bytes) : cparser bytes := fun i =>
  let '(a, r, n) := span_counted (fun c => mem c set) i in (Done r a, n).

(** [take!(n)] only compares lengths. *)
Definition ctake (n : nat) : cparser bytes := fun i => cret (take n i).

(** [find_sub] of Bytes.v: at each position, the bytes compared there. *)
Fixpoint find_sub_counted (sub i : bytes) : option nat * nat :=
  match compare_counted N.eqb i sub with
  | (CmpOk, n) => (Some 0, n)
  | (_, n) =>
      match i with
      | [] => (None, n)
      | _ :: i' => let '(r, m) := find_sub_counted sub i' in (option_map S r, n + m)
      end
  end.
(** [take_until!(sub)] *)
Definition ctake_until (sub : bytes) : cparser bytes := fun i =>
  if Nat.ltb (length i) (length sub) then (Incomplete, 0)
  else match find_sub_counted sub i with
       | (None, m) => (Err, m)
       | (Some n, m) => (Done (skipn n i) (firstn n i), m)
       end.
(** [take_until_and_consume!(sub)] *)
Definition ctake_until_and_consume (sub : bytes) : cparser bytes := fun i =>
  if Nat.ltb (length i) (length sub) then (Incomplete, 0)
  else match find_sub_counted sub i with
       | (None, m) => (Err, m)
       | (Some n, m) => (Done (skipn (n + length sub) i) (firstn n i), m)
       end.

(** [map!] *)
Definition cpmap {A B} (p : cparser A) (f : A -> B) : cparser B := fun i =>
  cbind (p i) (fun r x => cret (Done r (f x))).
(** [map_res!]: the closure goes through the text it is given. *)
Definition cmap_res {B} (p : cparser bytes) (f : bytes -> option B) : cparser B := fun i =>
  cbind (p i) (fun r x => (match f x with Some y => Done r y | None => Err end, length x)).
(** [verify!]: the closure looks at one value. *)
Definition cverify {A} (p : cparser A) (f : A -> bool) : cparser A := fun i =>
  cbind (p i) (fun r x => (if f x then Done r x else Err, 1)).
(** [preceded!] *)
Definition cpreceded {A B} (p : cparser A) (q : cparser B) : cparser B := fun i =>
  cbind (p i) (fun r _ => q r).
(** [opt!] *)
Definition copt {A} (p : cparser A) : cparser (option A) := fun i =>
  match p i with
  | (Done r x, n) => (Done r (Some x), n)
  | (Err, n) => (Done i None, n)
  | (Incomplete, n) => (Incomplete, n)
  | (OutOfFuel, n) => (OutOfFuel, n)
  end.
(** [complete!] *)
Definition ccomplete {A} (p : cparser A) : cparser A := fun i =>
  match p i with (Incomplete, n) => (Err, n) | r => r end.
(** [alt!(p | q)]: a failed first alternative has cost what it has cost. *)
Definition calt {A} (p q : cparser A) : cparser A := fun i =>
  match p i with
  | (Err, n) => let '(r, m) := q i in (r, n + m)
  | r => r
  end.
(** [recognize!] *)
Definition crecognize {A} (p : cparser A) : cparser bytes := fun i =>
  cbind (p i) (fun r _ => cret (Done r (firstn (length i - length r) i))).

(** [many0!] *)
Fixpoint cmany0_loop {A} (fuel : nat) (p : cparser A) (i : bytes) : counted (list A) :=
  match fuel with
  | O => (OutOfFuel, 0)
  | S fuel' =>
      match i with
      | [] => (Done [] [], 0)
      | _ :: _ =>
          match p i with
          | (Err, n) => (Done i [], n)
          | (Incomplete, n) => (Incomplete, n)
          | (OutOfFuel, n) => (OutOfFuel, n)
          | (Done i' x, n) =>
              if Nat.eqb (length i') (length i) then (Err, n)
              else let '(r, m) := cbind (cmany0_loop fuel' p i') (fun r xs => cret (Done r (x :: xs))) in
                   (r, n + m)
          end
      end
  end.
Definition cmany0 {A} (p : cparser A) : cparser (list A) := fun i =>
  cmany0_loop (S (length i)) p i.

(** The loop of [separated_list!] and [separated_nonempty_list!] *)
Fixpoint csep_loop {A B} (fuel : nat) (sep : cparser A) (p : cparser B) (i : bytes)
  : counted (list B) :=
  match fuel with
  | O => (OutOfFuel, 0)
  | S fuel' =>
      match sep i with
      | (Err, n) => (Done i [], n)
      | (Incomplete, n) => (Incomplete, n)
      | (OutOfFuel, n) => (OutOfFuel, n)
      | (Done i2 _, n) =>
          if Nat.eqb (length i2) (length i) then (Done i [], n)
          else match p i2 with
               | (Err, m) => (Done i [], n + m)
               | (Incomplete, m) => (Incomplete, n + m)
               | (OutOfFuel, m) => (OutOfFuel, n + m)
               | (Done i3 x, m) =>
                   if Nat.eqb (length i3) (length i2) then (Done i [], n + m)
                   else let '(r, k) := cbind (csep_loop fuel' sep p i3)
                                             (fun r xs => cret (Done r (x :: xs))) in
                        (r, n + m + k)
               end
      end
  end.
(** [separated_nonempty_list!] *)
Definition cseparated_nonempty_list {A B} (sep : cparser A) (p : cparser B) : cparser (list B) :=
  fun i =>
  cbind (p i) (fun r x =>
    if Nat.eqb (length r) (length i) then cret Err
    else cbind (csep_loop (S (length r)) sep p r) (fun r' xs => cret (Done r' (x :: xs)))).
Definition cseparated_nonempty_list_complete {A B} (sep : cparser A) (p : cparser B)
  : cparser (list B) :=
  cseparated_nonempty_list (ccomplete sep) (ccomplete p).
(** [separated_list!] *)
Definition cseparated_list {A B} (sep : cparser A) (p : cparser B) : cparser (list B) :=
  fun i =>
  match p i with
  | (Err, n) => (Done i [], n)
  | (Incomplete, n) => (Incomplete, n)
  | (OutOfFuel, n) => (OutOfFuel, n)
  | (Done r x, n) =>
    if Nat.eqb (length r) (length i) then (Err, n)
    else let '(r', m) := cbind (csep_loop (S (length r)) sep p r) (fun r' xs => cret (Done r' (x :: xs))) in
         (r', n + m)
  end.

(** * domain.rs (lines as in Message.v) *)
(** smtp-message/src/domain.rs:49-50 *)
Definition clabel : cparser (option bytes) :=
  cpreceded (cone_of alnum) (copt (cis_a alnumdash)).
(** [hostname] (domain.rs:45-62) *)
Definition chostname_host : cparser domain :=
  cpmap (crecognize (cseparated_nonempty_list_complete (ctag (s2b ".")) clabel)) Host.
Definition chostname_v6 : cparser domain :=
  cmap_res (cpreceded (ctag (s2b "[IPv6:")) (ctake_until_and_consume (s2b "]")))
           (fun x => option_map Addr6 (ipv6_from_str x)).
Definition chostname_v4 : cparser domain :=
  cmap_res (cpreceded (ctag (s2b "[")) (ctake_until_and_consume (s2b "]")))
           (fun x => option_map Addr4 (ipv4_from_str x)).
Definition chostname : cparser domain := calt chostname_host (calt chostname_v6 chostname_v4).

(** * email.rs *)
(** [dot_string] (email.rs:103-105) *)
Definition cdot_string : cparser bytes :=
  crecognize (cseparated_nonempty_list_complete (ctag (s2b ".")) (cis_a atext)).
(** [quoted_string] (email.rs:108-116) *)
Definition cquoted_char : cparser bytes :=
  calt (cpreceded (ctag [BACKSLASH]) (cverify (ctake 1) quoted_pair_ok))
       (cverify (ctake 1) qtext_ok).
Definition cquoted_string : cparser bytes :=
  crecognize (fun i =>
    cbind (ctag [QUOTE] i) (fun i _ =>
    cbind (cmany0 cquoted_char i) (fun i _ =>
    cbind (ctag [QUOTE] i) (fun i _ => cret (Done i tt))))).
(** [localpart] (email.rs:118) *)
Definition clocalpart : cparser bytes := calt cquoted_string cdot_string.
(** [email] (email.rs:120-124) *)
Definition cemail_p : cparser email := fun i =>
  cbind (clocalpart i) (fun i local =>
  cbind (copt (ccomplete (cpreceded (ctag (s2b "@")) chostname)) i) (fun i host =>
  cret (Done i (Email local host)))).
(** [address_in_path] (email.rs:126-133) *)
Definition cpath_hop : cparser unit := fun i =>
  cbind (ctag (s2b "@") i) (fun i _ =>
  cbind (chostname i) (fun i _ => cret (Done i tt))).
Definition csource_route : cparser unit := fun i =>
  cbind (cseparated_list (ctag (s2b ",")) cpath_hop i) (fun i _ =>
  cbind (ctag (s2b ":") i) (fun i _ => cret (Done i tt))).
Definition caddress_in_path : cparser email := cpreceded (copt csource_route) cemail_p.
(** [address_in_maybe_bracketed_path] (email.rs:135-145) *)
Definition cbracketed_path : cparser email := fun i =>
  cbind (ctag (s2b "<") i) (fun i _ =>
  cbind (caddress_in_path i) (fun i addr =>
  cbind (ctag (s2b ">") i) (fun i _ => cret (Done i addr)))).
Definition caddress_in_maybe_bracketed_path : cparser email := calt cbracketed_path caddress_in_path.

(** * parameters.rs *)
(** parameters.rs:34-40 *)
Definition cparameter : cparser (bytes * option bytes) := fun i =>
  cbind (cone_of spaces i) (fun i _ =>
  cbind (ceat_separator spaces i) (fun i _ =>
  cbind (crecognize clabel i) (fun i key =>
  cbind (copt (ccomplete (cpreceded (ctag (s2b "=")) (cis_a graph_except_equ))) i) (fun i value =>
  cret (Done i (key, value)))))).
(** [parse_parameters] (parameters.rs:32-43) *)
Definition cparse_parameters : cparser parameters := cpmap (cmany0 cparameter) params_collect.

(** * The commands *)
(** data/mod.rs:31-34, quit/mod.rs:26-33, rset/mod.rs:26-33 *)
Definition cbare_command (verb : bytes) (c : command) : cparser command := fun i =>
  cbind (ctag_no_case verb i) (fun i _ =>
  cbind (ceat_separator spaces i) (fun i _ =>
  cbind (ctag CRLF i) (fun i _ => cret (Done i c)))).
(** ehlo/mod.rs:32-41, helo/mod.rs:32-41 *)
Definition chello_command (verb : bytes) (mk : domain -> command) : cparser command := fun i =>
  cbind (ceat_separator spaces i) (fun i _ =>
  cbind (ctag_no_case verb i) (fun i _ =>
  cbind (ceat_separator spaces i) (fun i _ =>
  cbind (chostname i) (fun i d =>
  cbind (ceat_separator spaces i) (fun i _ =>
  cbind (ctag CRLF i) (fun i _ => cret (Done i (mk d)))))))).
(** expn/mod.rs:27-34, vrfy/mod.rs:27-34 *)
Definition cstring_command (verb : bytes) (mk : bytes -> command) : cparser command := fun i =>
  cbind (ctag_no_case verb i) (fun i _ =>
  cbind (cone_of spaces i) (fun i _ =>
  cbind (ctake_until CRLF i) (fun i res =>
  cbind (ctag CRLF i) (fun i _ => cret (Done i (mk res)))))).
(** help/mod.rs:28-35, noop/mod.rs:27-34 *)
Definition copt_string_command (verb : bytes) (mk : bytes -> command) : cparser command := fun i =>
  cbind (ctag_no_case verb i) (fun i _ =>
  cbind (copt (cone_of spaces) i) (fun i _ =>
  cbind (ctake_until CRLF i) (fun i res =>
  cbind (ctag CRLF i) (fun i _ => cret (Done i (mk res)))))).
(** mail/mod.rs:45-56 *)
Definition cmail_from : cparser (option email) :=
  calt (cpmap (ctag (s2b "<>")) (fun _ => None))
       (cpmap caddress_in_maybe_bracketed_path Some).
Definition ccommand_mail_args : cparser command := fun i =>
  cbind (ctag_no_case (s2b "MAIL FROM:") i) (fun i _ =>
  cbind (ceat_separator spaces i) (fun i _ =>
  cbind (cmail_from i) (fun i from =>
  cbind (cparse_parameters i) (fun i params =>
  cbind (ceat_separator spaces i) (fun i _ =>
  cbind (ctag CRLF i) (fun i _ => cret (Done i (Mail from params)))))))).
(** rcpt/mod.rs:34-42 *)
Definition ccommand_rcpt_args : cparser command := fun i =>
  cbind (ctag_no_case (s2b "RCPT TO:") i) (fun i _ =>
  cbind (ceat_separator spaces i) (fun i _ =>
  cbind (caddress_in_maybe_bracketed_path i) (fun i to =>
  cbind (cparse_parameters i) (fun i params =>
  cbind (ceat_separator spaces i) (fun i _ =>
  cbind (ctag CRLF i) (fun i _ => cret (Done i (Rcpt to params)))))))).
(** [command] (command.rs:64-76) *)
Definition ccommand_p : cparser command :=
  calt (cbare_command (s2b "DATA") Data)
 (calt (chello_command (s2b "EHLO") Ehlo)
 (calt (cstring_command (s2b "EXPN") Expn)
 (calt (chello_command (s2b "HELO") Helo)
 (calt (copt_string_command (s2b "HELP") Help)
 (calt ccommand_mail_args
 (calt (copt_string_command (s2b "NOOP") Noop)
 (calt (cbare_command (s2b "QUIT") Quit)
 (calt ccommand_rcpt_args
 (calt (cbare_command (s2b "RSET") Rset)
       (cstring_command (s2b "VRFY") Vrfy)))))))))).

(** * reply.rs *)
(** [reply] (reply.rs:130-150) *)
Definition creply_p : cparser reply_line := fun i =>
  cbind (cverify (cmap_res (ctake 3) u16_from_str) (fun x => (x <? 1000)%N) i) (fun i code =>
  cbind (cpmap (calt (ctag (s2b "-")) (ctag (s2b " ")))
               (fun b => Nat.eqb (length b) 1 && (nth 0 b 0 =? SP)%N) i) (fun i is_last =>
  cbind (ctake_until_and_consume CRLF i) (fun i line =>
  cret (Done i (ReplyLine code is_last line))))).

(** * The functions of the interface, with the count *)
Definition count_result {A} (r : counted A) : presult A * nat := (nom_to_result (fst r), snd r).
(** [Command::parse] (command.rs:43-45), [Domain::parse_slice] (domain.rs:22-29),
    [Email::parse_slice] (email.rs:27-34), [ReplyLine::parse] (reply.rs:106-108) *)
Definition command_parse_counted (b : bytes) : presult command * nat := count_result (ccommand_p b).
Definition domain_parse_counted (b : bytes) : presult domain * nat := count_result (chostname b).
Definition email_parse_counted (b : bytes) : presult email * nat := count_result (cemail_p b).
Definition reply_parse_counted (b : bytes) : presult reply_line * nat := count_result (creply_p b).
