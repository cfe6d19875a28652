(** Model of schema validation (src/Schema.cc). *)
From Verif Require Import Base CNum Float Value Convert Numeric ParserInput Emit.
From Coq Require Import SpecFloat.
Open Scope N_scope.

(** ** Context *)

(** src/Schema.cc:46-93 SchemaContext, as far as it decides what is reported: whether there are
    errors and schema errors (include/Variant/Schema.h:81-83).  The texts and the paths of the
    errors are not modelled; the depth is passed separately, because an AutoDepth (107-111)
    gives it back. *)
Record sctx := SCtx { c_err : bool; c_serr : bool }.
Definition no_errors : sctx := SCtx false false.
(** include/Variant/Schema.h:81 Error. *)
Definition failed (c : sctx) : bool := (c_err c || c_serr c)%bool.

(** How a call ends: normally, or with StopValidation (src/Schema.cc:42-44). *)
Inductive flow := Go (c : sctx) | Stop (c : sctx).
(** src/Schema.cc:59-69 AddError: records and throws. *)
Definition add_error (c : sctx) : res flow := Ok (Stop (SCtx true (c_serr c))).
(** src/Schema.cc:71-72 AddSchemaError: records and goes on. *)
Definition add_schema_error (c : sctx) : res flow := Ok (Go (SCtx (c_err c) true)).
(** One statement after the other. *)
Definition next (r : res flow) (k : sctx -> res flow) : res flow :=
  do o <- r; match o with Go c => k c | Stop c => Ok (Stop c) end.

(** [for (...)] whose body may stop. *)
Fixpoint each {A} (f : A -> sctx -> res flow) (l : list A) (c : sctx) : res flow :=
  match l with [] => Ok (Go c) | x :: t => next (f x c) (each f t) end.

(** schema.Contains(key) and schema[key] of a map. *)
Definition key (k : String.string) (m : list (bytes * value)) : option value := mget (s2b k) m.
Definition number (v : value) : bool := is_num (type_of v).

(** The elements met by [for (unsigned j = 0; j < v.Size(); ++j) v[j]]: Size is 32 bits wide. *)
Definition counted {A} (l : list A) : list A := take (wrap32 (llen l)) l.

(** ** Keywords that look at one value *)

(** The text of a name in src/Schema.cc:787-802. *)
Fixpoint texts (l : list value) : res unit :=
  match l with [] => Ok tt | v :: t => do _ <- as_string v; texts t end.

(** src/Schema.cc:754-804 ValidateType.  The message at the end asks for the text of every name. *)
Fixpoint type_loop (all l : list value) (data : value) (c : sctx) : res flow :=
  match l with
  | [] => do _ <- texts all; add_error c
  | i :: t =>
      let is k := v_eq i (VStr (s2b k)) in
      do array <- is "array"%string;
      if (array : bool) then match data with VList _ => Ok (Go c) | _ => type_loop all t data c end else
      do boolean <- is "boolean"%string;
      if (boolean : bool) then match data with VBool _ => Ok (Go c) | _ => type_loop all t data c end else
      do integer <- is "integer"%string;
      if (integer : bool) then
        match data with
        | VInt _ | VUns _ => Ok (Go c)
        | VFlt _ => do r <- v_arith OpRem data (VInt 1); do z <- v_eq r (VInt 0);
                    if (z : bool) then Ok (Go c) else type_loop all t data c
        | _ => type_loop all t data c
        end else
      do null <- is "null"%string;
      if (null : bool) then match data with VNull => Ok (Go c) | _ => type_loop all t data c end else
      do num <- is "number"%string;
      if (num : bool) then if number data then Ok (Go c) else type_loop all t data c else
      do object <- is "object"%string;
      if (object : bool) then match data with VMap _ => Ok (Go c) | _ => type_loop all t data c end else
      do str <- is "string"%string;
      if (str : bool) then match data with VStr _ => Ok (Go c) | _ => type_loop all t data c end else
      do _ <- as_string i; type_loop all t data (SCtx (c_err c) true)
  end.
Definition validate_type (m : list (bytes * value)) (data : value) (c : sctx) : res flow :=
  match key "type" m with
  | None => Ok (Go c)
  | Some t => let l := match t with VList l => l | _ => [t] end in type_loop l l data c
  end.

(** src/Schema.cc:737-752 ValidateEnum.  The message is not modelled (748-750 writes the data as JSON). *)
Fixpoint enum_loop (l : list value) (data : value) : res bool :=
  match l with
  | [] => Ok false
  | i :: t => if comparable i data then do e <- v_eq i data; if (e : bool) then Ok true else enum_loop t data else enum_loop t data
  end.
Definition validate_enum (m : list (bytes * value)) (data : value) (c : sctx) : res flow :=
  match key "enum" m with
  | None => Ok (Go c)
  | Some (VList l) => do e <- enum_loop l data; if (e : bool) then Ok (Go c) else add_error c
  | Some _ => add_schema_error c
  end.

(** src/Schema.cc:37 FLOAT_TOLERANCE: 100 * 2^-63. *)
Definition tolerance : spec_float := ld_mul (ld_of_Z 100) (S754_finite false 9223372036854775808 (-126)).
Definition f_abs (x : spec_float) : spec_float :=
  match x with
  | S754_zero _ => S754_zero false | S754_infinity _ => S754_infinity false
  | S754_nan => S754_nan | S754_finite _ m e => S754_finite false m e
  end.
Definition f_gt (x y : spec_float) : bool := match SFcompare x y with Some Gt => true | _ => false end.

(** src/Schema.cc:691-729 ValidateMultipleOf. *)
Definition validate_multiple (m : list (bytes * value)) (data : value) (c : sctx) : res flow :=
  match (match key "multipleOf" m with Some v => Some v | None => key "divisibleBy" m end) with
  | None => Ok (Go c)
  | Some mult =>
      do bad <- (if number mult then v_lt mult (VInt 0) else Ok true);
      if (bad : bool) then add_schema_error c else
      do md <- v_arith OpRem data mult;
      match data, mult with
      | VFlt _, _ | _, VFlt _ =>
          do x <- as_ld md; do divisor <- as_ld mult;
          if (f_gt x tolerance && f_gt (f_abs (ld_sub x divisor)) tolerance)%bool then add_error c else Ok (Go c)
      | _, _ => do ne <- v_ne md (VInt 0); if (ne : bool) then add_error c else Ok (Go c)
      end
  end.

(** src/Schema.cc:644-689 ValidateMinMax. *)
Definition validate_bound (bound excl : String.string) (beyond : value -> value -> res bool) (m : list (bytes * value)) (data : value) (c : sctx) : res flow :=
  match key bound m with
  | None => Ok (Go c)
  | Some b =>
      if number b then
        do out <- beyond data b;
        if (out : bool) then add_error c else
        do x <- match key excl m with Some e => as_bool e | None => Ok false end;
        if (x : bool) then do e <- v_eq data b; if (e : bool) then add_error c else Ok (Go c) else Ok (Go c)
      else add_schema_error c
  end.
Definition validate_minmax (m : list (bytes * value)) (data : value) (c : sctx) : res flow :=
  next (validate_bound "minimum" "exclusiveMinimum" v_lt m data c) (validate_bound "maximum" "exclusiveMaximum" v_gt m data).
(** src/Schema.cc:731-735 ValidateNumeric. *)
Definition validate_numeric (m : list (bytes * value)) (data : value) (c : sctx) : res flow :=
  if number data then next (validate_multiple m data c) (validate_minmax m data) else Ok (Go c).

(** src/Schema.cc:375-402 (properties), 466-493 (array items), 606-635 (string bytes): bounds on a size. *)
Definition validate_size (lo hi : String.string) (size : N) (m : list (bytes * value)) (c : sctx) : res flow :=
  next match key lo m with
       | None => Ok (Go c)
       | Some b => if number b then do n <- as_uns b; if size <? n then add_error c else Ok (Go c) else add_schema_error c
       end
  (fun c => match key hi m with
       | None => Ok (Go c)
       | Some b => if number b then do n <- as_uns b; if n <? size then add_error c else Ok (Go c) else add_schema_error c
       end).

(** src/Schema.cc:446-464 ValidateArrayUniqueItems. *)
Fixpoint unique_row (x : value) (l : list value) : res bool :=
  match l with
  | [] => Ok true
  | y :: t => if comparable x y then do e <- v_eq x y; if (e : bool) then Ok false else unique_row x t else unique_row x t
  end.
Fixpoint unique (l : list value) : res bool :=
  match l with [] => Ok true | x :: t => do u <- unique_row x t; if (u : bool) then unique t else Ok false end.
Definition validate_unique (m : list (bytes * value)) (l : list value) (c : sctx) : res flow :=
  match key "uniqueItems" m with
  | None => Ok (Go c)
  | Some (VBool true) => do u <- unique (counted l); if (u : bool) then Ok (Go c) else add_error c
  | Some (VBool false) => Ok (Go c)
  | Some _ => add_schema_error c
  end.

(** src/Schema.cc:347-373 ValidateObjectRequiredProperties. *)
Definition validate_required (m d : list (bytes * value)) (c : sctx) : res flow :=
  match key "required" m with
  | None => Ok (Go c)
  | Some (VList l) =>
      each (fun x c => match x with
                       | VStr k => match mget k d with Some _ => Ok (Go c) | None => add_error c end
                       | _ => add_schema_error c
                       end) l c
  | Some _ => add_schema_error c
  end.

Section Validate.
  (** regcomp with REG_EXTENDED | REG_NOSUB, and regexec on what it compiled. *)
  Variable rx : bytes -> option (bytes -> bool).
  (** SchemaLoader::GetSchema (src/SchemaLoader.cc:120-149); an exception passes through
      SchemaValidate. *)
  Variable get_schema : bytes -> res value.

  (** src/Schema.cc:572-604 ValidateStringPattern. *)
  Definition validate_pattern (m : list (bytes * value)) (s : bytes) (c : sctx) : res flow :=
    match key "pattern" m with
    | None => Ok (Go c)
    | Some (VStr p) =>
        match rx (c_str p) with
        | None => add_schema_error c
        | Some f => if f (c_str s) then Ok (Go c) else add_error c
        end
    | Some _ => add_schema_error c
    end.

  Definition date_time_re : bytes := s2b "^[0-9][0-9][0-9][0-9](-[0-1][0-9](-[0-3][0-9](T[0-9][0-9](:[0-9][0-9](:[0-9][0-9])?)?)?)?)?Z?$".
  Definition date_re : bytes := s2b "^[0-9][0-9][0-9][0-9]-[0-1][0-9]-[0-3][0-9]$".
  Definition time_re : bytes := s2b "^[0-2][0-9]:[0-5][0-9]:[0-5][0-9]$".
  (** src/Schema.cc:502-570 ValidateStringFormat. *)
  Definition validate_format (m : list (bytes * value)) (s : bytes) (c : sctx) : res flow :=
    match key "format" m with
    | Some (VStr f) =>
        if beqb f (s2b "regex") then match rx (c_str s) with None => add_error c | Some _ => Ok (Go c) end
        else
          match (if beqb f (s2b "date-time") then Some date_time_re else if beqb f (s2b "date") then Some date_re
                 else if beqb f (s2b "time") then Some time_re else None) with
          | None => Ok (Go c)
          | Some p => match rx p with
                      | None => add_schema_error c
                      | Some g => if g (c_str s) then Ok (Go c) else add_error c
                      end
          end
    | _ => Ok (Go c)
    end.

  (** src/Schema.cc:637-642 ValidateString. *)
  Definition validate_string (m : list (bytes * value)) (data : value) (c : sctx) : res flow :=
    match data with
    | VStr s => next (validate_size "minLength" "maxLength" (wrap32 (llen s)) m c) (fun c =>
                next (validate_pattern m s c) (validate_format m s))
    | _ => Ok (Go c)
    end.

  (** ** Keywords with schemas in them *)

  Section Sub.
    (** SchemaValidate one level down. *)
    Variable sub : value -> value -> sctx -> res flow.

    (** src/Schema.cc:115-126 ValidateNot; the copied context has no errors (47-52). *)
    Definition validate_not (m : list (bytes * value)) (data : value) (c : sctx) : res flow :=
      match key "not" m with
      | None => Ok (Go c)
      | Some s => do o <- sub s data no_errors;
                  match o with
                  | Stop _ => Ok (Go c)
                  | Go n => if failed n then Ok (Go c) else add_error c
                  end
      end.
    (** src/Schema.cc:128-162 ValidateOneOf. *)
    Fixpoint one_loop (l : list value) (n : N) (data : value) (c : sctx) : res flow :=
      match l with
      | [] => if n =? 0 then add_error c else Ok (Go c)
      | s :: t => do o <- sub s data no_errors;
                  let n := match o with Go e => if failed e then n else wrap32 (n + 1) | Stop _ => n end in
                  if 1 <? n then add_error c else one_loop t n data c
      end.
    Definition validate_one (m : list (bytes * value)) (data : value) (c : sctx) : res flow :=
      match key "oneOf" m with
      | None => Ok (Go c)
      | Some (VList l) => one_loop l 0 data c
      | Some _ => add_schema_error c
      end.
    (** src/Schema.cc:164-186 ValidateAnyOf. *)
    Fixpoint any_loop (l : list value) (data : value) (c : sctx) : res flow :=
      match l with
      | [] => add_error c
      | s :: t => do o <- sub s data no_errors;
                  match o with
                  | Go e => if failed e then any_loop t data c else Ok (Go c)
                  | Stop _ => any_loop t data c
                  end
      end.
    Definition validate_any (m : list (bytes * value)) (data : value) (c : sctx) : res flow :=
      match key "anyOf" m with
      | None => Ok (Go c)
      | Some (VList l) => any_loop l data c
      | Some _ => add_schema_error c
      end.
    (** src/Schema.cc:188-202 ValidateAllOf. *)
    Definition validate_all (m : list (bytes * value)) (data : value) (c : sctx) : res flow :=
      match key "allOf" m with
      | None => Ok (Go c)
      | Some (VList l) => each (fun s => sub s data) l c
      | Some _ => add_schema_error c
      end.
    (** src/Schema.cc:204-209 ValidateCombinations. *)
    Definition validate_combinations (m : list (bytes * value)) (data : value) (c : sctx) : res flow :=
      next (validate_all m data c) (fun c => next (validate_any m data c) (fun c => next (validate_one m data c) (validate_not m data))).

    (** src/Schema.cc:211-217 ValidateObjectDependenciesHelper. *)
    Definition need (d : list (bytes * value)) (k : bytes) (c : sctx) : res flow :=
      match mget k d with Some _ => Ok (Go c) | None => add_error c end.
    (** src/Schema.cc:219-246 ValidateObjectDependencies. *)
    Definition validate_dependencies (m d : list (bytes * value)) (c : sctx) : res flow :=
      match key "dependencies" m with
      | None => Ok (Go c)
      | Some (VMap deps) =>
          each (fun kv c =>
            match mget (fst kv) d with
            | None => Ok (Go c)
            | Some _ =>
                match snd kv with
                | VStr k => need d k c
                | VList l => each (fun x c => do k <- as_string x; need d k c) (counted l) c
                | VMap _ => sub (snd kv) (VMap d) c
                | _ => add_schema_error c
                end
            end) deps c
      | Some _ => add_schema_error c
      end.

    (** src/Schema.cc:249-300 PatternProperty: the patterns that compile, and whether any does not. *)
    Fixpoint compile (l : list (bytes * value)) : bool * list ((bytes -> bool) * value) :=
      match l with
      | [] => (false, [])
      | (p, s) :: t => let '(bad, ps) := compile t in
                       match rx (c_str p) with None => (true, ps) | Some f => (bad, (f, s) :: ps) end
      end.
    (** src/Schema.cc:281-345 ValidateObjectProperties. *)
    Definition validate_properties (m d : list (bytes * value)) (c : sctx) : res flow :=
      let '(bad, ps) := match key "patternProperties" m with
                        | None => (false, [])
                        | Some (VMap l) => compile l
                        | Some _ => (true, [])
                        end in
      let '(bad2, props) := match key "properties" m with
                            | None => (false, [])
                            | Some (VMap l) => (false, l)
                            | Some _ => (true, [])
                            end in
      each (fun kv c =>
        let named := mget (fst kv) props in
        let matching := List.filter (fun p => (fst p : bytes -> bool) (c_str (fst kv))) ps in
        next (match named with Some s => sub s (snd kv) c | None => Ok (Go c) end) (fun c =>
        next (each (fun p => sub (snd p) (snd kv)) matching c) (fun c =>
        match named, matching with
        | None, [] => match key "additionalProperties" m with
                      | None => Ok (Go c)
                      | Some (VBool true) => Ok (Go c)
                      | Some (VBool false) => add_error c
                      | Some s => sub s (snd kv) c
                      end
        | _, _ => Ok (Go c)
        end))) d (SCtx (c_err c) (c_serr c || bad || bad2)).
    (** src/Schema.cc:404-410 ValidateObject. *)
    Definition validate_object (m : list (bytes * value)) (data : value) (c : sctx) : res flow :=
      match data with
      | VMap d => next (validate_size "minProperties" "maxProperties" (wrap32 (llen d)) m c) (fun c =>
                  next (validate_required m d c) (fun c =>
                  next (validate_properties m d c) (validate_dependencies m d)))
      | _ => Ok (Go c)
      end.

    (** src/Schema.cc:412-444 ValidateArrayItems. *)
    Fixpoint items_loop (m : list (bytes * value)) (items l : list value) (c : sctx) : res flow :=
      match l with
      | [] => Ok (Go c)
      | x :: t =>
          match items with
          | s :: items => next (sub s x c) (items_loop m items t)
          | [] => next match key "additionalItems" m with
                       | None => Ok (Go c)
                       | Some (VBool true) => Ok (Go c)
                       | Some (VBool false) => add_error c
                       | Some s => sub s x c
                       end (items_loop m [] t)
          end
      end.
    Definition validate_items (m : list (bytes * value)) (l : list value) (c : sctx) : res flow :=
      match key "items" m with
      | None => Ok (Go c)
      | Some (VList items) => items_loop m (counted items) (counted l) c
      | Some s => each (fun x => sub s x) (counted l) c
      end.
    (** src/Schema.cc:495-500 ValidateArray. *)
    Definition validate_array (m : list (bytes * value)) (data : value) (c : sctx) : res flow :=
      match data with
      | VList l => next (validate_size "minItems" "maxItems" (wrap32 (llen l)) m c) (fun c =>
                   next (validate_unique m l c) (validate_items m l))
      | _ => Ok (Go c)
      end.

    (** src/Schema.cc:815-823 (and 806-809 ValidateBasic): all keywords of a schema that is a map. *)
    Definition validate_map (m : list (bytes * value)) (data : value) (c : sctx) : res flow :=
      next (match key "$ref" m with
            | Some (VStr u) => do s <- get_schema u; sub s data c
            | _ => Ok (Go c)
            end) (fun c =>
      next (validate_type m data c) (fun c =>
      next (validate_enum m data c) (fun c =>
      next (validate_numeric m data c) (fun c =>
      next (validate_string m data c) (fun c =>
      next (validate_array m data c) (fun c =>
      next (validate_object m data c) (validate_combinations m data))))))).
  End Sub.

  (** src/Schema.cc:38, 74-82: the limit. *)
  Definition RECURSION_LIMIT : N := 100.
  (** src/Schema.cc:811-824 SchemaValidate, [depth] calls below the first. *)
  Fixpoint validate (fuel : nat) (depth : N) (schema data : value) (c : sctx) : res flow :=
    match fuel with
    | O => Fuel
    | S f =>
        if RECURSION_LIMIT <? depth + 1 then Ok (Stop (SCtx (c_err c) true))
        else match schema with
             | VMap m => validate_map (validate f (depth + 1)) m data c
             | _ => Ok (Go c)
             end
    end.

  (** src/Schema.cc:836-840, the rest of SchemaValidate: what is reported.  The schema is the one
      that lines 829-834 choose, and [get_schema] is the loader after AddSchema (835). *)
  Definition schema_validate (fuel : nat) (schema data : value) : res sctx :=
    do o <- validate fuel 0 schema data no_errors; Ok (match o with Go c => c | Stop c => c end).
End Validate.
