(** Model of the URI functions of src/SchemaLoader.cc: ParseURI, RemoveDotSegments,
    ResolveURI, UnescapeURI. *)
From Verif Require Import Base CNum.
Open Scope N_scope.

(** src/SchemaLoader.h URIInfo: the parts kept by ParseURI; each is empty when absent and
    otherwise includes its delimiter. *)
Record uri := Uri { u_protocol : bytes; u_authority : bytes; u_pathname : bytes; u_search : bytes; u_hash : bytes }.

Definition among (cs : string) (c : ascii) : bool := existsb (aeqb c) (s2b cs).

(** The optional group for the scheme and its colon, src/SchemaLoader.cc:194.  In a POSIX bracket the backslash is itself. *)
Definition take_protocol (s : bytes) : bytes * bytes :=
  match span (fun c => negb (among ":\/?#" c)) s with
  | ([], _) => ([], s)
  | (a, c :: t) => if aeqb c ":" then (a ++ [c], t) else ([], s)
  | (_, []) => ([], s)
  end.

(** The group for user and password (src/SchemaLoader.cc:195): the text up to and including the first @, when at most one
    colon precedes it. *)
Definition take_user (s : bytes) : bytes * bytes :=
  match span (fun c => negb (among ":@" c)) s with
  | (a, c :: t) =>
      if aeqb c "@" then (a ++ [c], t)
      else match span (fun c => negb (among ":@" c)) t with
           | (b, d :: r) => if aeqb d "@" then (a ++ c :: b ++ [d], r) else ([], s)
           | (_, []) => ([], s)
           end
  | (_, []) => ([], s)
  end.

(** The host group and the optional port group (src/SchemaLoader.cc:195). *)
Definition take_host (s : bytes) : bytes * bytes :=
  let '(h, r) := span (fun c => negb (among ":/?#" c)) s in
  match r with
  | c :: t => if aeqb c ":" then let '(d, r') := span is_digit t in (h ++ c :: d, r') else (h, r)
  | [] => (h, [])
  end.

(** The optional group opened by two slashes: src/SchemaLoader.cc:195. *)
Definition take_authority (s : bytes) : bytes * bytes :=
  match s with
  | c :: d :: t =>
      if (aeqb c "/" && aeqb d "/")%bool then
        let '(u, r) := take_user t in
        let '(h, r') := take_host r in
        (c :: d :: u ++ h, r')
      else ([], s)
  | _ => ([], s)
  end.

(** The optional group for the query, up to a number sign. *)
Definition take_search (s : bytes) : bytes * bytes :=
  match s with
  | c :: _ => if aeqb c "?" then span (fun c => negb (aeqb c "#")) s else ([], s)
  | [] => ([], s)
  end.

(** The optional group for the fragment: a number sign and no white space. *)
Definition take_hash (s : bytes) : bytes * bytes :=
  match s with
  | c :: _ => if aeqb c "#" then span (fun c => negb (is_space c)) s else ([], s)
  | [] => ([], s)
  end.

(** src/SchemaLoader.cc:185-261 ParseURI.  regexec finds the leftmost longest match with
    each part, from left to right, as long as possible; for this expression that is the
    greedy reading below (taking an optional part never makes the remainder fail when
    leaving it out would succeed).  The subject is uri.c_str(): a NUL would end it; strings
    with NUL are not modelled.  None when nothing matches. *)
Definition parse_uri (s : bytes) : option uri :=
  let '(_, s) := span is_space s in
  let '(p, s) := take_protocol s in
  let '(a, s) := take_authority s in
  let '(f, s) := span (fun c => negb (among "?#" c)) s in
  let '(q, s) := take_search s in
  let '(h, s) := take_hash s in
  match span is_space s with
  | (_, []) => Some (Uri p a f q h)
  | _ => None
  end.

(** The pieces of a text between slashes: always at least one. *)
Fixpoint split_slash (s : bytes) : list bytes :=
  match s with
  | [] => [[]]
  | c :: t =>
      if aeqb c "/" then [] :: split_slash t
      else match split_slash t with
           | x :: r => (c :: x) :: r
           | [] => [[c]]
           end
  end.

(** src/SchemaLoader.cc:295-311: one turn of the loop for each piece after a slash; [out]
    is the vector and [last] is lastdot. *)
Fixpoint dots_loop (segs : list bytes) (out : list bytes) (last : nat) : list bytes * nat :=
  match segs with
  | [] => (out, last)
  | s :: t =>
      if beqb s (s2b ".") then dots_loop t out (List.length out)
      else if beqb s (s2b "..") then
        let out := match out with [] => [s] | _ => removelast out end in
        dots_loop t out (List.length out)
      else dots_loop t (out ++ [s]) last
  end.

(** src/SchemaLoader.cc:312-320: writing the vector, a slash before every piece but the
    first, and before the first when [first]. *)
Fixpoint write_segs (first : bool) (out : list bytes) : bytes :=
  match out with
  | [] => []
  | s :: t => (if first then s2b "/" else []) ++ s ++ write_segs true t
  end.

(** src/SchemaLoader.cc:263-325 RemoveDotSegments.  The scanning with find and substr is
    replaced by [split_slash]; after the output loop firstslash is true unless nothing was
    written and it was false before. *)
Definition remove_dots (input : bytes) : bytes :=
  match split_slash input with
  | [] => []
  | [x] => if beqb x (s2b ".") then [] else x
  | s0 :: segs =>
      let first := beqb s0 [] in
      let out := if first then [] else if beqb s0 (s2b ".") then [] else [s0] in
      let last := if beqb s0 (s2b "..") then 1%nat else 0%nat in
      let '(out, last) := dots_loop segs out last in
      write_segs first out
        ++ (match out with [] => if first then s2b "/" else [] | _ => [] end)
        ++ (if (Nat.ltb 0 last && Nat.eqb last (List.length out))%bool then s2b "/" else [])
  end.

(** substr(0, rfind("/") + 1): the text up to the last slash, or nothing. *)
Fixpoint upto_last_slash (s : bytes) : bytes :=
  match s with
  | [] => []
  | c :: t => match upto_last_slash t with
              | [] => if aeqb c "/" then [c] else []
              | r => c :: r
              end
  end.

Definition nonempty {A} (s : list A) : bool := match s with [] => false | _ => true end.

(** src/SchemaLoader.cc:327-358 ResolveURI(base, href). *)
Definition resolve_uri (base href : bytes) : bytes :=
  match parse_uri base, parse_uri href with
  | Some b, Some h =>
      (if nonempty (u_protocol h) then u_protocol h else u_protocol b)
      ++ (if (nonempty (u_protocol h) || nonempty (u_authority h))%bool then u_authority h else u_authority b)
      ++ (if (nonempty (u_protocol h) || nonempty (u_authority h)
              || match u_pathname h with c :: _ => aeqb c "/" | [] => false end)%bool
          then remove_dots (u_pathname h)
          else if negb (nonempty (u_pathname h)) then remove_dots (u_pathname b)
          else remove_dots ((if (nonempty (u_authority b) && negb (nonempty (u_pathname b)))%bool then s2b "/" else [])
                            ++ upto_last_slash (u_pathname b) ++ u_pathname h))
      ++ (if (nonempty (u_protocol h) || nonempty (u_authority h) || nonempty (u_pathname h) || nonempty (u_search h))%bool
          then u_search h else u_search b)
      ++ u_hash h
  | _, _ => []
  end.

(** The value of one hexadecimal digit as strtol reads it (src/SchemaLoader.cc:102). *)
Definition hex_digit (c : ascii) : option N :=
  let n := bval c in
  if is_digit c then Some (n - 48)
  else if ((97 <=? n) && (n <=? 102))%bool then Some (n - 87)
  else if ((65 <=? n) && (n <=? 70))%bool then Some (n - 55)
  else None.

(** strtol(hex, &endp, 16) on two characters followed by NUL (src/SchemaLoader.cc:100-103):
    the value cast to char when the whole string was consumed ([*endp] is NUL).  strtol skips
    white space and takes a sign; with no digits endp is the start of the string, and with
    a NUL among the two characters the string ends there. *)
Definition hex2 (a b : ascii) : option ascii :=
  let chr z := bchr (Z.to_N (z mod 256)) in
  match hex_digit a with
  | Some x => match hex_digit b with
              | Some y => Some (bchr (16 * x + y))
              | None => if aeqb b "000" then Some (bchr x) else None
              end
  | None =>
      if aeqb a "000" then Some "000"%char
      else if is_space a then match hex_digit b with Some y => Some (bchr y) | None => None end
      else if aeqb a "+" then match hex_digit b with Some y => Some (bchr y) | None => None end
      else if aeqb a "-" then match hex_digit b with Some y => Some (chr (- Z.of_N y)%Z) | None => None end
      else None
  end.

(** ret.append(c) of a C string: up to a NUL. *)
Fixpoint upto_nul (s : bytes) : bytes :=
  match s with [] => [] | c :: t => if aeqb c "000" then [] else c :: upto_nul t end.

(** src/SchemaLoader.cc:89-118 UnescapeURI. *)
Fixpoint unescape_uri (s : bytes) : bytes :=
  match s with
  | [] => []
  | c :: t =>
      if aeqb c "%" then
        match t with
        | a :: b :: r => match hex2 a b with
                         | Some d => d :: unescape_uri r
                         | None => c :: a :: b :: unescape_uri r
                         end
        | _ => upto_nul s
        end
      else c :: unescape_uri t
  end.
