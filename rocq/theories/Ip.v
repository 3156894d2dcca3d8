(** Model of [std::net::{Ipv4Addr, Ipv6Addr}] [FromStr] and [Display], as in the
    Rust 1.42 standard library (common.nix pins the 2020-03-12 toolchains).
    Used by smtp-message/src/domain.rs:38-39, 52-60.  The std sources are not in
    /repo; this file is part of the trusted reading. *)
From Verif Require Import Bytes.
Local Open Scope N_scope.

(** [Ipv4Addr]: four octets; [Ipv6Addr]: eight 16-bit segments. *)
Definition ipv4 := (N * N * N * N)%type.
Definition ipv6 := list N.

Definition wf_ipv4 (a : ipv4) : Prop :=
  let '(a, b, c, d) := a in a < 256 /\ b < 256 /\ c < 256 /\ d < 256.
Definition wf_ipv6 (a : ipv6) : Prop :=
  length a = 8%nat /\ Forall (fun g => g < 65536) a.

(** [Parser::read_digit] *)
Definition parse_digit (radix c : N) : option N :=
  if (48 <=? c) && (c <=? 57) then Some (c - 48)
  else if (10 <? radix) && (97 <=? c) && (c <? 97 + (radix - 10)) then Some (c - 97 + 10)
  else if (10 <? radix) && (65 <=? c) && (c <? 65 + (radix - 10)) then Some (c - 65 + 10)
  else None.

(** [Parser::read_number_impl] *)
Fixpoint read_number_loop (radix : N) (maxd : nat) (upto : N) (s : bytes) (r : N) (count : nat)
  : option (N * bytes) :=
  match s with
  | [] => if Nat.eqb count 0 then None else Some (r, s)
  | c :: s' =>
      match parse_digit radix c with
      | None => if Nat.eqb count 0 then None else Some (r, s)
      | Some d =>
          let r' := r * radix + d in
          let count' := S count in
          if Nat.ltb maxd count' || (upto <=? r') then None
          else read_number_loop radix maxd upto s' r' count'
      end
  end.
Definition read_number (radix : N) (maxd : nat) (upto : N) (s : bytes) : option (N * bytes) :=
  read_number_loop radix maxd upto s 0 0.

(** [Parser::read_given_char] *)
Definition read_given_char (c : N) (s : bytes) : option bytes :=
  match s with
  | x :: s' => if x =? c then Some s' else None
  | [] => None
  end.

(** [Parser::read_ipv4_addr] *)
Definition read_ipv4_addr (s : bytes) : option (ipv4 * bytes) :=
  match read_number 10 3 256 s with
  | None => None
  | Some (a, s) =>
  match read_given_char 46 s with
  | None => None
  | Some s =>
  match read_number 10 3 256 s with
  | None => None
  | Some (b, s) =>
  match read_given_char 46 s with
  | None => None
  | Some s =>
  match read_number 10 3 256 s with
  | None => None
  | Some (c, s) =>
  match read_given_char 46 s with
  | None => None
  | Some s =>
  match read_number 10 3 256 s with
  | None => None
  | Some (d, s) => Some ((a, b, c, d), s)
  end end end end end end end.

(** [Ipv4Addr::from_str]: the whole string must be consumed. *)
Definition ipv4_from_str (s : bytes) : option ipv4 :=
  match read_ipv4_addr s with
  | Some (a, []) => Some a
  | _ => None
  end.

(** [if i == 0 || p.read_given_char(':').is_some()] *)
Definition skip_colon (first : bool) (s : bytes) : option bytes :=
  if first then Some s else read_given_char 58 s.

(** [read_groups]; [n] is [limit - i], [first] is [i == 0].  Returns the groups
    read, whether an IPv4 part ended them, and the rest. *)
Fixpoint read_groups (n : nat) (first : bool) (s : bytes) : list N * bool * bytes :=
  match n with
  | O => ([], false, s)
  | S n' =>
      let v4 :=
        match n' with
        | O => None
        | S _ => match skip_colon first s with
                 | None => None
                 | Some s' => read_ipv4_addr s'
                 end
        end in
      match v4 with
      | Some ((a, b, c, d), s') => ([a * 256 + b; c * 256 + d], true, s')
      | None =>
          match (match skip_colon first s with
                 | None => None
                 | Some s' => read_number 16 4 65536 s'
                 end) with
          | None => ([], false, s)
          | Some (g, s') =>
              let '(gs, v, r) := read_groups n' false s' in (g :: gs, v, r)
          end
      end
  end.

(** [Parser::read_ipv6_addr_impl] *)
Definition read_ipv6_addr (s : bytes) : option (ipv6 * bytes) :=
  let '(head, head_ipv4, s1) := read_groups 8 true s in
  if Nat.eqb (length head) 8 then Some (head, s1)
  else if head_ipv4 then None
  else match read_given_char 58 s1 with
       | None => None
       | Some s2 =>
       match read_given_char 58 s2 with
       | None => None
       | Some s3 =>
           let '(tail, _, s4) := read_groups (8 - (length head + 1)) true s3 in
           Some (head ++ repeat 0 (8 - length head - length tail) ++ tail, s4)
       end end.
Definition ipv6_from_str (s : bytes) : option ipv6 :=
  match read_ipv6_addr s with
  | Some (a, []) => Some a
  | _ => None
  end.

(** [Display for u8] *)
Definition show_u8 (n : N) : bytes :=
  if n <? 10 then [48 + n]
  else if n <? 100 then [48 + n / 10; 48 + n mod 10]
  else [48 + n / 100; 48 + (n / 10) mod 10; 48 + n mod 10].
(** [Display for Ipv4Addr] *)
Definition show_ipv4 (a : ipv4) : bytes :=
  let '(a, b, c, d) := a in
  show_u8 a ++ [46] ++ show_u8 b ++ [46] ++ show_u8 c ++ [46] ++ show_u8 d.

(** ["{:x}"] of a [u16] *)
Definition hex_digit (d : N) : N := if d <? 10 then 48 + d else 87 + d.
Definition show_hex (n : N) : bytes :=
  if n <? 16 then [hex_digit n]
  else if n <? 256 then [hex_digit (n / 16); hex_digit (n mod 16)]
  else if n <? 4096 then [hex_digit (n / 256); hex_digit ((n / 16) mod 16); hex_digit (n mod 16)]
  else [hex_digit (n / 4096); hex_digit ((n / 256) mod 16); hex_digit ((n / 16) mod 16);
        hex_digit (n mod 16)].

(** [fmt_subslice] *)
Fixpoint show_groups (gs : list N) : bytes :=
  match gs with
  | [] => []
  | [g] => show_hex g
  | g :: gs' => show_hex g ++ [58] ++ show_groups gs'
  end.

(** [find_zero_slice]: (start, length) of the first longest run of zeros. *)
Fixpoint find_zero_loop (gs : list N) (i : nat) (lat llen cat clen : nat) : nat * nat :=
  match gs with
  | [] => (lat, llen)
  | g :: gs' =>
      if g =? 0 then
        let cat' := if Nat.eqb clen 0 then i else cat in
        let clen' := S clen in
        if Nat.ltb llen clen' then find_zero_loop gs' (S i) cat' clen' cat' clen'
        else find_zero_loop gs' (S i) lat llen cat' clen'
      else find_zero_loop gs' (S i) lat llen 0 0
  end.
Definition find_zero_slice (gs : list N) : nat * nat := find_zero_loop gs 0 0 0 0 0.

Definition show_v4_tail (g h : N) : bytes := show_ipv4 (g / 256, g mod 256, h / 256, h mod 256).

(** [Display for Ipv6Addr]; the Rust code matches on the segment array. *)
Definition show_ipv6 (a : ipv6) : bytes :=
  let z6 := forallb (N.eqb 0) (firstn 6 a) in
  let z5 := forallb (N.eqb 0) (firstn 5 a) in
  let g := nth 6 a 0 in
  let h := nth 7 a 0 in
  if z6 && (g =? 0) && (h =? 0) then s2b "::"
  else if z6 && (g =? 0) && (h =? 1) then s2b "::1"
  else if z6 then s2b "::" ++ show_v4_tail g h
  else if z5 && (nth 5 a 0 =? 65535) then s2b "::ffff:" ++ show_v4_tail g h
  else
    let '(zeros_at, zeros_len) := find_zero_slice a in
    if Nat.ltb 1 zeros_len then
      show_groups (firstn zeros_at a) ++ s2b "::" ++ show_groups (skipn (zeros_at + zeros_len) a)
    else show_groups a.
