(** Model of ArgParse::GenerateSchema (src/ArgParse.cc): the schema of what Parse returns, for options whose paths are keys. *)
From Verif Require Import Base CNum Float Value Convert Numeric Path ValueOps ArgParse.
Open Scope N_scope.

(** src/ArgParse.cc:174-193 TypeString. *)
Definition type_string (t : vtype) : bytes :=
  match t with
  | BoolType => s2b "boolean" | IntegerType | UnsignedType => s2b "integer" | FloatType => s2b "number" | StringType => s2b "string"
  | _ => s2b "null"
  end.
(** if (opt.Contains(k)) { s[k] = opt[k]; }, src/ArgParse.cc:1796-1831. *)
Definition copy_key (o : aopt) (s : list (bytes * value)) (k : String.string) : list (bytes * value) :=
  match akey k o with Some v => mset (s2b k) v s | None => s end.
(** src/ArgParse.cc:1800-1806, 1820-1826: what is demanded of one value. *)
Definition demands (o : aopt) (s : list (bytes * value)) : list (bytes * value) :=
  let s := match o_type o with NullType => s | t => mset (s2b "type") (VStr (type_string t)) s end in
  fold_left (copy_key o) ["minimum"; "maximum"; "minLength"; "maxLength"; "pattern"; "enum"]%string s.
(** if (opt.Contains(from) && opt[from] > 0) { s[to] = opt[from]; }, src/ArgParse.cc:1833-1834. *)
Definition copy_positive (o : aopt) (from to : String.string) (s : list (bytes * value)) : res (list (bytes * value)) :=
  match akey from o with
  | None => Ok s
  | Some m => do g <- v_gt m (VInt 0); if (g : bool) then Ok (mset (s2b to) m s) else Ok s
  end.
(** src/ArgParse.cc:1794-1851 GenerateSchema of one option.  opt.Get("const") of an option without one throws. *)
Definition gen_leaf (o : aopt) : res (list (bytes * value)) :=
  let s := fold_left (copy_key o) ["title"; "description"]%string [] in
  match o_action o with
  | AStore => Ok (copy_key o (demands o s) "default")
  | AStoreConst => match akey "const" o with Some c => Ok (mset (s2b "enum") (VList [c]) s) | None => Throw KeyError end
  | AStoreTrue | AStoreFalse => Ok (copy_key o (mset (s2b "type") (VStr (s2b "boolean")) s) "default")
  | AAppend =>
      let s := match akey "default" o with Some v => mset (s2b "default") (VList [v]) s | None => s end in
      let s := mset (s2b "items") (VMap (demands o [])) s in
      do s <- copy_positive o "minArgs" "minItems" s; copy_positive o "maxArgs" "maxItems" s
  | ACount => Ok (mset (s2b "minimum") (VInt 0) (mset (s2b "type") (VStr (s2b "integer")) s))
  | _ => Ok s
  end.
(** src/ArgParse.cc:1750-1783, along keys only.  A schema on the way is a map (1772, 1782); the types that are written (1774, 1800-1837)
    are never "array", and what does not arise ("properties" that is not a map, "required" that is not a list) is taken to be empty. *)
Fixpoint gen_at (s : value) (ks : list bytes) (req : bool) (leaf : value) : value :=
  match ks with
  | [] => leaf
  | k :: ks =>
      let m := match s with VMap m => m | _ => [] end in
      let m := match mget (s2b "type") m with Some _ => m | None => mset (s2b "type") (VStr (s2b "object")) m end in
      let ps := match mget (s2b "properties") m with Some (VMap ps) => ps | _ => [] end in
      let rq := match mget (s2b "required") m with Some (VList l) => l | _ => [] end in
      let m := if req then mset (s2b "required") (VList (if existsb (fun x => match v_eq x (VStr k) with Ok true => true | _ => false end) rq then rq else rq ++ [VStr k])) m else m in
      let sub := match mget k ps with Some s' => s' | None => VMap [] end in
      VMap (mset (s2b "properties") (VMap (mset k (gen_at sub ks req leaf) ps)) m)
  end.
(** The keys of a path; a number is not one (see above). *)
Definition path_keys (p : path) : list bytes := List.map (fun e => match e with PKey k => k | PIdx _ => [] end) p.
(** src/ArgParse.cc:1268-1275: first the options, then the arguments, each in the order in which they were added, which
    [adesc] does not keep: the list is an argument. *)
Fixpoint gen_all (l : list aopt) (s : value) : res value :=
  match l with
  | [] => Ok s
  | o :: l => do leaf <- gen_leaf o; gen_all l (gen_at s (path_keys (o_path o)) (o_required o) (VMap leaf))
  end.
(** src/ArgParse.cc:871-889 GroupSchema, along keys: something is at this path. *)
Fixpoint present (ks : list bytes) : value :=
  match ks with [] => VMap [] | k :: ks => VMap [(s2b "properties", VMap [(k, present ks)]); (s2b "required", VList [VStr k])] end.
(** src/ArgParse.cc:840-869 GenerateSchema of a group; the members stand in the order of their addresses there, here in that of the list. *)
Definition gen_group (d : adesc) (g : agroup) : list value :=
  if g_exclusive g then
    let l := flat_map (fun id => match find_opt d id with Some o => [present (path_keys (o_path o))] | None => [] end) (nodup N.eq_dec (g_members g)) in
    let l' := if g_required g then l else l ++ [VMap [(s2b "not", VMap [(s2b "anyOf", VList l)])]] in
    [VMap [(s2b "oneOf", VList l')]]
  else [].
(** src/ArgParse.cc:866-867, 1276-1278. *)
Definition gen_groups (d : adesc) (s : value) : value :=
  match flat_map (gen_group d) (d_groups d) with
  | [] => s
  | l => VMap (mset (s2b "allOf") (VList l) (match s with VMap m => m | _ => [] end))
  end.
(** src/ArgParse.cc:754-758. *)
Definition gen_schema (d : adesc) (l : list aopt) : res value := do s <- gen_all l (VMap []); Ok (gen_groups d s).
