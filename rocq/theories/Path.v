(** Model of src/Path.cc and include/Variant/Path.h. *)
From Verif Require Import Base CNum.
Open Scope N_scope.

(** include/Variant/Path.h:65-85 class PathElement.  The index is a 32-bit
    [unsigned]; well-formedness [elem_ok] says so. *)
Inductive pelem : Type :=
| PKey (k : bytes)
| PIdx (i : N).

(** include/Variant/Path.h:87 typedef std::deque<PathElement> Path. *)
Notation path := (list pelem).

Definition elem_ok (e : pelem) : Prop := match e with PKey _ => True | PIdx i => i < 2^32 end.

(** src/Path.cc:13-16 the local variables of ParsePath. *)
Record pstate := PState {
  ps_out : path;       (* parsed_path, in order *)
  ps_frag : bytes;     (* frag *)
  ps_escape : bool;
  ps_index : bool;
  ps_key : bool
}.

(** src/Path.cc:18-69 one iteration of the ParsePath loop on character [c].
    The conversion of line 28 truncates the 64-bit number to [unsigned]. *)
Definition parse_step (s : pstate) (c : ascii) : res pstate :=
  let 'PState out frag esc idx key := s in
  if esc then Ok (PState out (frag ++ [c]) false idx key)
  else if idx then
    if aeqb c "]" then
      match istream_ull frag with
      | None => Throw RuntimeError
      | Some i => Ok (PState (out ++ [PIdx (wrap32 i)]) [] false false key)
      end
    else Ok (PState out (frag ++ [c]) false idx key)
  else if key then
    if aeqb c "/" then Ok (PState (out ++ [PKey frag]) [] false idx key)
    else if aeqb c "[" then Ok (PState (out ++ [PKey frag]) [] false true false)
    else if aeqb c "\" then Ok (PState out frag true idx key)
    else Ok (PState out (frag ++ [c]) false idx key)
  else
    if aeqb c "/" then Ok (PState out [] false idx true)
    else if aeqb c "[" then Ok (PState out [] false true key)
    else Ok (PState out [c] false idx true).

(** src/Path.cc:17-71 the loop. *)
Fixpoint parse_loop (s : pstate) (t : bytes) : res pstate :=
  match t with
  | [] => Ok s
  | c :: t' => do s' <- parse_step s c; parse_loop s' t'
  end.

(** src/Path.cc:10-73 ParsePath(Path&, const std::string&): appends to [p0]. *)
Definition parse_path_into (p0 : path) (t : bytes) : res path :=
  do s <- parse_loop (PState p0 [] false false false) t;
  Ok (match ps_frag s with [] => ps_out s | f => ps_out s ++ [PKey f] end).

(** src/Path.cc:75-79 ParsePath(const std::string&). *)
Definition parse_path (t : bytes) : res path := parse_path_into [] t.

(** src/Path.cc:88-106 the escaping of one key character. *)
Definition escape_char (c : ascii) : bytes :=
  if aeqb c "/" then s2b "\/"
  else if aeqb c "[" then s2b "\["
  else if aeqb c "]" then s2b "\]"
  else if aeqb c "\" then s2b "\\"
  else [c].

(** src/Path.cc:85-111 the text of one element.  (The loop counter of line 88 is
    a 32-bit [unsigned] compared with a 64-bit size: keys of 2^32 bytes or more
    are outside the model.  The third branch of line 109 is unreachable.) *)
Definition elem_string (e : pelem) : bytes :=
  match e with
  | PKey k => "/"%char :: flat_map escape_char k
  | PIdx i => "["%char :: dec_of_N i ++ ["]"%char]
  end.

(** src/Path.cc:81-114 PathString. *)
Definition path_string (p : path) : bytes :=
  match p with [] => ["/"%char] | _ => flat_map elem_string p end.
