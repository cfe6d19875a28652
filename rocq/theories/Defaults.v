(** AddSchemaDefaults of src/Schema.cc. *)
From Verif Require Import Base Value Path ValueOps ParserInput Schema.
Open Scope N_scope.

(** The document is a tree [root], and a VariantRef the path [p] in it; it exists when the tree
    has something there ([vat]).  Assigning through it creates what is missing on the way ([vset];
    P_Elements.v proves that the operations on the heap do this).  Simplified: the schema and the
    document share no storage. *)
Definition put (root : value) (p : path) (x : value) : res value :=
  match vset root p x with Some r => Ok r | None => Throw UnexpectedTypeError end.

(** src/Schema.cc:858, 862, 869: !data.Exists() with data.IsNull(), data.IsMap() or data.IsList(). *)
Definition is_absent (o : option value) : bool := match o with None | Some VNull => true | Some _ => false end.
Definition for_map (o : option value) : bool := match o with None | Some (VMap _) => true | Some _ => false end.
Definition for_list (o : option value) : bool := match o with None | Some (VList _) => true | Some _ => false end.

Section Defaults.
  (** SchemaLoader::GetSchema (src/SchemaLoader.cc:120-149). *)
  Variable get_schema : bytes -> res value.

  Section Sub.
    (** AddSchemaDefaultsImpl (src/Schema.cc:853) called for a part. *)
    Variable sub : value -> value -> path -> res value.

    (** src/Schema.cc:845-851 AddSchemaListDefaultsImpl. *)
    Fixpoint each_default (l : list value) (root : value) (p : path) : res value :=
      match l with [] => Ok root | s :: t => do root <- sub s root p; each_default t root p end.
    Definition list_defaults (o : option value) (root : value) (p : path) : res value :=
      match o with Some (VList l) => each_default l root p | _ => Ok root end.

    (** src/Schema.cc:863-867. *)
    Fixpoint property_defaults (ps : list (bytes * value)) (root : value) (p : path) : res value :=
      match ps with
      | [] => Ok root
      | (k, s) :: t => do root <- sub s root (p ++ [PKey k]); property_defaults t root p
      end.
    (** src/Schema.cc:871-874. *)
    Fixpoint item_defaults (ss : list value) (i : N) (root : value) (p : path) : res value :=
      match ss with
      | [] => Ok root
      | s :: t => do root <- sub s root (p ++ [PIdx i]); item_defaults t (i + 1) root p
      end.

    (** src/Schema.cc:863-867: a "properties" that is null becomes an empty map
        (src/Variant.cc:638-641 Null::AsMap), any other is refused (323-324). *)
    Definition properties_defaults (ps : value) (root : value) (p : path) : res value :=
      match ps with VMap l => property_defaults l root p | VNull => Ok root | _ => Throw UnableToConvertError end.
    (** src/Schema.cc:870-878. *)
    Definition items_defaults (s : value) (root : value) (p : path) : res value :=
      match s with VList ss => item_defaults (counted ss) 0 root p | _ => sub s root (p ++ [PIdx 0]) end.
    (** src/Schema.cc:862-881, after "default". *)
    Definition rest_defaults (m : list (bytes * value)) (root : value) (p : path) : res value :=
      do root <- match key "properties" m with
                 | Some ps => if for_map (vat root p) then properties_defaults ps root p else Ok root
                 | None => Ok root
                 end;
      do root <- match key "items" m with
                 | Some s => if for_list (vat root p) then items_defaults s root p else Ok root
                 | None => Ok root
                 end;
      do root <- list_defaults (key "allOf" m) root p;
      do root <- list_defaults (key "oneOf" m) root p;
      list_defaults (key "anyOf" m) root p.
    (** src/Schema.cc:855-881, for a schema that is a map. *)
    Definition map_defaults (m : list (bytes * value)) (root : value) (p : path) : res value :=
      do root <- match key "$ref" m with
                 | Some (VStr u) => do s <- get_schema u; sub s root p
                 | _ => Ok root
                 end;
      match key "default" m with
      | Some x => if is_absent (vat root p) then put root p x else rest_defaults m root p
      | None => rest_defaults m root p
      end.
  End Sub.

  (** src/Schema.cc:853-882 AddSchemaDefaultsImpl; there is no limit on the calls. *)
  Fixpoint defaults (fuel : nat) (schema root : value) (p : path) : res value :=
    match fuel with
    | O => Fuel
    | S f => match schema with VMap m => map_defaults (defaults f) m root p | _ => Ok root end
    end.
  (** src/Schema.cc:884-894 AddSchemaDefaults, with the schema that lines 886-891 choose and the
      loader after AddSchema (892): the reference is to the whole document. *)
  Definition add_defaults (fuel : nat) (schema root : value) : res value := defaults fuel schema root [].
End Defaults.
