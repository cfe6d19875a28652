(** Model of the schema loader (src/SchemaLoader.cc) and of what SchemaValidate does with Variants
    before it validates (src/Schema.cc:826-841): these are the only places of validation that
    write to a Variant. *)
From Verif Require Import Base Float Value Blob Path Numeric Heap Uri Pointer Schema.
Open Scope N_scope.

Definition k_id : bytes := s2b "id".
Definition k_ref : bytes := s2b "$ref".
Definition k_enum : bytes := s2b "enum".
Definition k_schema : bytes := s2b "$schema".

(** schema.Contains(k) && schema[k].IsString(), and then schema[k].AsString(), of a map storage
    (src/SchemaLoader.cc:363-364, 367-368, 387-388). *)
Definition text_at (s : nat) (k : bytes) : M (option bytes) :=
  let* m := get_map s in
  match mget k m with
  | Some (CStr z) => let* b := get_str z in ret (Some b)
  | _ => ret None
  end.
(** schema[k] = u, where u is a std::string and k is there (src/SchemaLoader.cc:365, 368): the entry
    gets a new string. *)
Definition put_text (s : nat) (k u : bytes) : M unit :=
  let* n := alloc (StStr u) in assign (CStr n) (LKey s k).

(** [for (i = begin; i != end; ++i)]: the body does not add or remove elements. *)
Fixpoint each_m {A} (f : A -> M unit) (l : list A) : M unit :=
  match l with [] => ret tt | x :: t => f x;; each_m f t end.
(** The positions of a vector. *)
Definition positions {A} (l : list A) : list N := List.map N.of_nat (seq 0 (List.length l)).
(** src/SchemaLoader.cc:371 and 402. *)
Definition not_enum (k : bytes) : bool := negb (beqb k k_enum).

(** src/SchemaLoader.cc:360-381 NormSchema.  A cyclic schema recurses without end; [fuel] bounds
    the depth. *)
Fixpoint norm_schema (fuel : nat) (l : loc) (uri : bytes) : M unit :=
  match fuel with
  | O => fail Fuel
  | S f =>
      let* c := load l in
      match c with
      | CMap s =>
          let* id := text_at s k_id in
          let* base := match id with
                       | Some t => let u := resolve_uri uri t in put_text s k_id u;; ret u
                       | None => ret uri
                       end in
          let* r := text_at s k_ref in
          match r with
          | Some t => put_text s k_ref (resolve_uri base t)
          | None =>
              let* m := get_map s in
              each_m (fun k => norm_schema f (LKey s k) base) (List.filter not_enum (mkeys m))
          end
      | CList s =>
          let* cs := get_list s in
          each_m (fun i => norm_schema f (LIdx s i) uri) (positions cs)
      | _ => ret tt
      end
  end.

(** id.substr(0, uri.length()) == uri, and what remains of id (src/SchemaLoader.cc:389-390). *)
Fixpoint remainder (uri id : bytes) : option bytes :=
  match uri, id with
  | [], _ => Some id
  | a :: uri', b :: id' => if aeqb a b then remainder uri' id' else None
  | _ :: _, [] => None
  end.
(** src/SchemaLoader.cc:391-393: uri ends in a slash, or what remains begins with a hash or a
    question mark.  remainder[0] of an empty string is NUL. *)
Definition trusted (uri id : bytes) : bool :=
  match remainder uri id with
  | None => false
  | Some r =>
      (match rev uri with c :: _ => aeqb c "/" | [] => false end
       || match r with c :: _ => aeqb c "#" || aeqb c "?" | [] => false end)%bool
  end.
Fixpoint fold_m {A B} (f : B -> A -> M B) (l : list A) (b : B) : M B :=
  match l with [] => ret b | x :: t => let* b' := f b x in fold_m f t b' end.

(** src/SchemaLoader.cc:383-408 SearchForTrustedSchemas; [m] is the std::map. *)
Fixpoint search_trusted (fuel : nat) (m : list (bytes * cell)) (c : cell) (uri : bytes) : M (list (bytes * cell)) :=
  match fuel with
  | O => fail Fuel
  | S f =>
      match c with
      | CMap s =>
          let* id := text_at s k_id in
          let m' := match id with
                    | Some t => if trusted uri t then match mget t m with None => mset t c m | Some _ => m end else m
                    | None => m
                    end in
          let* entries := get_map s in
          fold_m (fun m kc => if not_enum (fst kc) then
                                match snd kc with CMap _ => search_trusted f m (snd kc) uri | _ => ret m end
                              else ret m) entries m'
      | _ => ret m
      end
  end.

(** A Variant object of the function: it is there while the function runs. *)
Definition with_local {A} (c : cell) (f : loc -> M A) : M A := fun st =>
  let n := List.length (h_vars st) in
  let '(r, st') := f (LVar n) (HState (h_vars st ++ [c]) (h_heap st)) in
  (r, HState (firstn n (h_vars st')) (h_heap st')).

(** include/Variant/Schema.h:100-159 SchemaLoader: the member [schemas] of a loader and of the loaders
    [base] leads to, the first one first.  The handlers of missing schemas are not modelled: there
    are none, and so HandleMissing (src/SchemaLoader.cc:165-174) returns false. *)
Definition schemas : Type := list (bytes * cell).
Definition loader : Type := list schemas.

(** std::map::insert(first, last): what is there stays. *)
Fixpoint insert_all (own m : schemas) : schemas :=
  match m with
  | [] => own
  | (k, c) :: t => insert_all (match mget k own with Some _ => own | None => mset k c own end) t
  end.

(** src/SchemaLoader.cc:151-159 AddSchema. *)
Definition add_schema (fuel : nat) (own : schemas) (uri : bytes) (c : cell) : M schemas :=
  let luri := resolve_uri uri [] in
  with_local c (fun l => norm_schema fuel l luri);;
  let* m := search_trusted fuel [(luri, c)] c luri in
  ret (insert_all own m).

(** uri.find("#"), and the text before and after it (src/SchemaLoader.cc:127-131). *)
Fixpoint split_hash (s : bytes) : option (bytes * bytes) :=
  match s with
  | [] => None
  | c :: t => if aeqb c "#" then Some ([], t)
              else match split_hash t with Some (a, b) => Some (c :: a, b) | None => None end
  end.
(** src/SchemaLoader.cc:125-131: baseuri and fragment. *)
Definition base_and_fragment (uri : bytes) : bytes * bytes :=
  match split_hash uri with Some p => p | None => (resolve_uri uri [], []) end.
(** src/SchemaLoader.cc:147-148: Variant schema = iter->second; the Variant the pointer leads to. *)
Definition fragment_of (c : cell) (pointer : bytes) : M cell :=
  with_local c (fun l => let* r := pointer_lookup pointer (RRef l) in read_ref r).

(** src/SchemaLoader.cc:120-149 GetSchema. *)
Fixpoint get_schema (ld : loader) (uri : bytes) : M cell :=
  match ld with
  | [] => fail UB
  | own :: up =>
      match mget uri own with
      | Some c => ret c
      | None =>
          let '(baseuri, fragment) := base_and_fragment uri in
          match mget baseuri own with
          | Some c => fragment_of c (unescape_uri fragment)
          | None => match up with [] => throw RuntimeError | _ => get_schema up uri end
          end
      end
  end.

(** src/SchemaLoader.cc:68-85: a new loader knows the schema of schemas, which is the same Variant for
    every loader. *)
Definition new_loader (meta : bytes * cell) (up : loader) : loader := [meta] :: up.

(** src/Schema.cc:829-834: the schema that is used. *)
Definition choose_schema (ld : loader) (cs cd : cell) : M cell :=
  let* c := match cs, cd with
            | CNull, CMap d =>
                let* m := get_map d in
                match mget k_schema m with
                | Some x => with_local CNull (fun l => set_key l k_ref x;; load l)
                | None => ret cs
                end
            | _, _ => ret cs
            end in
  match c with
  | CStr z => let* u := get_str z in get_schema ld u
  | _ => ret c
  end.
(** src/Schema.cc:828-835: the schema that is used, and the loader. *)
Definition prepare (fuel : nat) (meta : bytes * cell) (up : loader) (cs cd : cell) : M (cell * loader) :=
  let* c := choose_schema (new_loader meta up) cs cd in
  let* own := add_schema fuel [meta] [] c in
  ret (c, own :: up).

(** What a cell reads as.  Of a cyclic structure nothing. *)
Fixpoint read_out (fuel : nat) (c : cell) : M value :=
  match fuel with
  | O => fail Fuel
  | S f =>
      match c with
      | CNull => ret VNull
      | CBool b => ret (VBool b)
      | CInt z => ret (VInt z)
      | CUns n => ret (VUns n)
      | CFlt x => ret (VFlt x)
      | CStr s => let* b := get_str s in ret (VStr b)
      | CBlob None => ret (VBlob [])
      | CBlob (Some s) => let* b := get_blob s in ret (VBlob b)
      | CList s => let* l := get_list s in let* vs := map_m (read_out f) l in ret (VList vs)
      | CMap s =>
          let* m := get_map s in
          let* vm := map_m (fun kc => let* v := read_out f (snd kc) in ret (fst kc, v)) m in ret (VMap vm)
      end
  end.

(** src/Schema.cc:826-841 SchemaValidate.  Lines 836-839 only read (Contains, operator[] of a key that
    is there, Size, conversions, comparisons, iterators): they are Schema.v's [schema_validate], of what
    the Variants read as; [n] bounds how deep they are. *)
Definition validate_top (rx : bytes -> option (bytes -> bool)) (fuel n : nat) (meta : bytes * cell) (up : loader) (cs cd : cell) : M sctx :=
  let* cl := prepare n meta up cs cd in
  let* s := read_out n (fst cl) in
  let* d := read_out n cd in
  fun st => (schema_validate rx (fun u => fst ((let* c := get_schema (snd cl) u in read_out n c) st)) fuel s d, st).
