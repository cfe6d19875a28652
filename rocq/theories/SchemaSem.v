(** What the keywords of a JSON Schema (draft 4) mean, independent of src/Schema.cc. *)
From Verif Require Import Base Float Value NumberSpec P_Equal ParserInput.
From Coq Require Import Reals.
Open Scope N_scope.

Definition kw (k : String.string) (m : list (bytes * value)) : option value := mget (s2b k) m.

(** The value of a keyword that is a count. *)
Definition count_of (v : value) : option N :=
  match v with VUns n => Some n | VInt z => if (0 <=? z)%Z then Some (Z.to_N z) else None | _ => None end.
(** The whole number a value is. *)
Definition whole (v : value) : option Z := match v with VInt z => Some z | VUns n => Some (Z.of_N n) | _ => None end.

(** The types of section 5.5.2; a number without a fraction is an integer. *)
Definition type_is (t : bytes) (d : value) : Prop :=
  (t = s2b "array" /\ exists l, d = VList l) \/
  (t = s2b "boolean" /\ exists b, d = VBool b) \/
  (t = s2b "integer" /\ exists z, num_val d = Some (Fin (IZR z))) \/
  (t = s2b "null" /\ d = VNull) \/
  (t = s2b "number" /\ exists x, num_val d = Some x) \/
  (t = s2b "object" /\ exists m, d = VMap m) \/
  (t = s2b "string" /\ exists s, d = VStr s).
Definition type_names : list bytes := List.map s2b ["array"; "boolean"; "integer"; "null"; "number"; "object"; "string"]%string.

(** The characters of a text in UTF-8: the bytes that do not continue one. *)
Definition chars (s : bytes) : N := llen (List.filter (fun c => negb ((128 <=? bval c) && (bval c <? 192))%bool) s).
Definition ascii_only (s : bytes) : Prop := Forall (fun c => bval c < 128) s.
Definition nul_free (s : bytes) : Prop := ~ In (bchr 0) s.

(** Every two elements, the first before the second. *)
Fixpoint pairwise {A} (R : A -> A -> Prop) (l : list A) : Prop :=
  match l with [] => True | x :: t => Forall (R x) t /\ pairwise R t end.

Section Meaning.
  (** Which texts are regular expressions, and what they match; the schemas that references
      stand for. *)
  Variable rx : bytes -> option (bytes -> bool).
  Variable get_schema : bytes -> res value.

  (** ** The keywords *)

  Section Keywords.
    (** [H s d]: [d] satisfies the schema [s]. *)
    Variable H : value -> value -> Prop.
    Variable m : list (bytes * value).

    Definition m_type (d : value) : Prop :=
      match kw "type" m with
      | Some (VStr t) => type_is t d
      | Some (VList l) => exists t, In (VStr t) l /\ type_is t d
      | _ => True
      end.
    Definition m_enum (d : value) : Prop :=
      match kw "enum" m with Some (VList l) => exists x, In x l /\ same x d | _ => True end.

    (** Numbers (5.1). *)
    Definition m_multiple (d : value) : Prop :=
      forall b x y, kw "multipleOf" m = Some b -> num_val d = Some (Fin x) -> num_val b = Some (Fin y) -> exists k, (x = IZR k * y)%R.
    Definition m_minimum (d : value) : Prop :=
      forall b x y, kw "minimum" m = Some b -> num_val d = Some x -> num_val b = Some y ->
      x = y /\ kw "exclusiveMinimum" m <> Some (VBool true) \/ ext_lt y x.
    Definition m_maximum (d : value) : Prop :=
      forall b x y, kw "maximum" m = Some b -> num_val d = Some x -> num_val b = Some y ->
      x = y /\ kw "exclusiveMaximum" m <> Some (VBool true) \/ ext_lt x y.

    (** Bounds on a size (5.2.1, 5.2.2, 5.3.2, 5.3.3, 5.4.1, 5.4.2). *)
    Definition m_size (lo hi : String.string) (size : N) : Prop :=
      (forall b n, kw lo m = Some b -> count_of b = Some n -> n <= size) /\
      (forall b n, kw hi m = Some b -> count_of b = Some n -> size <= n).

    Definition m_string (d : value) : Prop :=
      forall s, d = VStr s ->
      m_size "minLength" "maxLength" (chars s) /\
      (forall p f, kw "pattern" m = Some (VStr p) -> rx p = Some f -> f s = true).

    (** Arrays (5.3). *)
    Definition additional (k : String.string) (x : value) : Prop :=
      match kw k m with None => True | Some (VBool b) => b = true | Some s => H s x end.
    Definition m_items (l : list value) : Prop :=
      match kw "items" m with
      | None => True
      | Some (VList ss) => forall i x, nth_error l i = Some x ->
          match nth_error ss i with Some s => H s x | None => additional "additionalItems" x end
      | Some s => Forall (H s) l
      end.
    Definition m_array (d : value) : Prop :=
      forall l, d = VList l ->
      m_size "minItems" "maxItems" (llen l) /\
      (kw "uniqueItems" m = Some (VBool true) -> pairwise (fun x y => ~ same x y) l) /\
      m_items l.

    (** Objects (5.4). *)
    Definition named_schema (k : bytes) (s : value) : Prop := exists ps, kw "properties" m = Some (VMap ps) /\ mget k ps = Some s.
    Definition matching_schema (k : bytes) (s : value) : Prop :=
      exists ps p f, kw "patternProperties" m = Some (VMap ps) /\ In (p, s) ps /\ rx p = Some f /\ f k = true.
    Definition m_object (d : value) : Prop :=
      forall fs, d = VMap fs ->
      m_size "minProperties" "maxProperties" (llen fs) /\
      (forall l k, kw "required" m = Some (VList l) -> In (VStr k) l -> mget k fs <> None) /\
      (forall k x, mget k fs = Some x ->
        (forall s, named_schema k s -> H s x) /\ (forall s, matching_schema k s -> H s x) /\
        ((forall s, ~ named_schema k s) -> (forall s, ~ matching_schema k s) -> additional "additionalProperties" x)) /\
      (forall deps k dep, kw "dependencies" m = Some (VMap deps) -> mget k deps = Some dep -> mget k fs <> None ->
        match dep with VList l => forall k', In (VStr k') l -> mget k' fs <> None | s => H s d end).

    (** Combinations (5.5.3 to 5.5.6). *)
    Definition m_combinations (d : value) : Prop :=
      (forall l, kw "allOf" m = Some (VList l) -> Forall (fun s => H s d) l) /\
      (forall l, kw "anyOf" m = Some (VList l) -> Exists (fun s => H s d) l) /\
      (forall l, kw "oneOf" m = Some (VList l) -> exists l1 s l2, l = l1 ++ s :: l2 /\ H s d /\ Forall (fun s => ~ H s d) (l1 ++ l2)) /\
      (forall s, kw "not" m = Some s -> ~ H s d).

    (** A reference stands for the schema it leads to; otherwise every keyword has to hold. *)
    Definition meets (d : value) : Prop :=
      match kw "$ref" m with
      | Some (VStr u) => exists s, get_schema u = Ok s /\ H s d
      | _ => m_type d /\ m_enum d /\ m_multiple d /\ m_minimum d /\ m_maximum d /\ m_string d /\ m_array d /\ m_object d /\ m_combinations d
      end.
  End Keywords.

  (** ** Schemas in the supported vocabulary *)

  Section Wellformed.
    (** [U s d]: [s] can be used on [d]. *)
    Variable U : value -> value -> Prop.
    Variable m : list (bytes * value).

    Definition absent (ks : list String.string) : Prop := forall k, In k ks -> kw k m = None.
    Definition w_count (k : String.string) : Prop := forall b, kw k m = Some b -> vok b /\ count_of b <> None.
    Definition w_flag (k : String.string) : Prop := forall b, kw k m = Some b -> exists x, b = VBool x.
    Definition w_number (k : String.string) : Prop := forall b, kw k m = Some b -> vok b /\ exists x, num_val b = Some x.
    Definition w_schemas (d : value) (k : String.string) : Prop := forall b, kw k m = Some b -> exists l, b = VList l /\ Forall (fun s => U s d) l.

    Definition w_basic (d : value) : Prop :=
      (forall t, kw "type" m = Some t -> (exists s, t = VStr s /\ In s type_names) \/
         exists l, t = VList l /\ forall x, In x l -> exists s, x = VStr s /\ In s type_names) /\
      (forall b, kw "enum" m = Some b -> exists l, b = VList l /\ Forall (fun x => vok x /\ plain x) l).
    (** Of "multipleOf", only whole numbers; a negative number only with a signed one. *)
    Definition w_numeric (d : value) : Prop :=
      forall x, num_val d = Some x ->
      kw "divisibleBy" m = None /\
      (forall b, kw "multipleOf" m = Some b -> vok b /\ exists y z, whole b = Some y /\ whole d = Some z /\ (0 < y)%Z /\
        ((0 <= z)%Z \/ exists y', b = VInt y')) /\
      w_number "minimum" /\ w_number "maximum" /\ w_flag "exclusiveMinimum" /\ w_flag "exclusiveMaximum".
    (** Lengths only of texts in ASCII; none of the formats that are checked. *)
    Definition w_string (d : value) : Prop :=
      forall s, d = VStr s ->
      llen s < 2^32 /\ w_count "minLength" /\ w_count "maxLength" /\
      (kw "minLength" m <> None \/ kw "maxLength" m <> None -> ascii_only s) /\
      (forall b, kw "pattern" m = Some b -> exists p, b = VStr p /\ nul_free p /\ nul_free s /\ rx p <> None) /\
      (forall f, kw "format" m = Some (VStr f) -> ~ In f (List.map s2b ["regex"; "date-time"; "date"; "time"]%string)).
    Definition w_additional (k : String.string) (x : value) : Prop := forall s, kw k m = Some s -> U s x \/ exists b, s = VBool b.
    Definition w_array (d : value) : Prop :=
      forall l, d = VList l ->
      llen l < 2^32 /\ w_count "minItems" /\ w_count "maxItems" /\ w_flag "uniqueItems" /\
      (forall b, kw "items" m = Some b -> match b with
         | VList ss => llen ss < 2^32 /\ forall i x, nth_error l i = Some x ->
             match nth_error ss i with Some s => U s x | None => w_additional "additionalItems" x end
         | s => Forall (U s) l
         end).
    Definition w_object (d : value) : Prop :=
      forall fs, d = VMap fs ->
      llen fs < 2^32 /\ w_count "minProperties" /\ w_count "maxProperties" /\
      (forall b, kw "required" m = Some b -> exists l, b = VList l /\ forall x, In x l -> exists k, x = VStr k) /\
      (forall b, kw "properties" m = Some b -> exists ps, b = VMap ps) /\
      (forall b, kw "patternProperties" m = Some b -> (forall k, In k (mkeys fs) -> nul_free k) /\
         exists ps, b = VMap ps /\ forall p s, In (p, s) ps -> nul_free p /\ rx p <> None) /\
      (forall k x, mget k fs = Some x ->
        (forall s, named_schema m k s -> U s x) /\ (forall s, matching_schema m k s -> U s x) /\ w_additional "additionalProperties" x) /\
      (forall b, kw "dependencies" m = Some b -> exists deps, b = VMap deps /\ msorted deps /\ forall k dep, mget k deps = Some dep ->
        match dep with
        | VList l => llen l < 2^32 /\ forall x, In x l -> exists k', x = VStr k'
        | VMap _ => U dep d
        | _ => False
        end).
    Definition w_combinations (d : value) : Prop :=
      w_schemas d "allOf" /\ w_schemas d "anyOf" /\ w_schemas d "oneOf" /\ (forall s, kw "not" m = Some s -> U s d).

    Definition keywords : list String.string :=
      ["type"; "enum"; "multipleOf"; "divisibleBy"; "minimum"; "maximum"; "minLength"; "maxLength"; "pattern"; "format";
       "minItems"; "maxItems"; "uniqueItems"; "items"; "minProperties"; "maxProperties"; "required"; "properties";
       "patternProperties"; "additionalProperties"; "dependencies"; "allOf"; "anyOf"; "oneOf"; "not"]%string.
    (** The data: any number but infinities and NaN, no binary data. *)
    Definition w_data (d : value) : Prop := vok d /\ plain d /\ forall x, d = VFlt x -> f_finite x = true.
    Definition usable_map (d : value) : Prop :=
      w_data d /\
      match kw "$ref" m with
      | Some (VStr u) => absent keywords /\ exists s, get_schema u = Ok s /\ U s d
      | Some _ => False
      | None => w_basic d /\ w_numeric d /\ w_string d /\ w_array d /\ w_object d /\ w_combinations d
      end.
  End Wellformed.

  (** [usable n s d]: [s] is in the vocabulary as far as it is used on [d], with no more than
      [n] schemas one inside the other, references followed.  Anything that is not an object is
      a schema that says nothing. *)
  Fixpoint usable (n : nat) (s d : value) : Prop :=
    match n with
    | O => False
    | S n => match s with VMap m => usable_map (usable n) m d | _ => True end
    end.

  (** A predicate that is the meaning of schemas: it obeys the keywords wherever a schema can be
      used. *)
  Definition means_schemas (H : value -> value -> Prop) : Prop :=
    forall n s d, usable n s d -> match s with VMap m => H s d <-> meets H m d | _ => H s d end.
End Meaning.
