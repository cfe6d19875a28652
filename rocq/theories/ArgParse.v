(** Model of the command line parser (src/ArgParse.cc): the options and arguments, what is done with each occurrence, defaults,
    groups, configuration files and the resulting Variant.  The help texts are left out, and getopt_long stands as the
    sequence of its answers. *)
From Verif Require Import Base CNum Float Value Convert Numeric ParseBool GuessScalar Path ValueOps ParserInput Emit.
Open Scope N_scope.

(** include/Variant/ArgParse.h:14-29 ArgParseAction. *)
Inductive aaction := AUnknown | AStore | AStoreConst | AStoreTrue | AStoreFalse | AAppend | ACount | AHelp | AAdvHelp
  | AConfig | AConfigJson | AConfigYaml | AConfigPlist | APrintConfig.
(** The names, src/ArgParse.cc:51-81 ArgParseActionFromStr and 83-115 ArgParseActionToStr. *)
Definition action_names : list (bytes * aaction) :=
  [(s2b "store", AStore); (s2b "store_const", AStoreConst); (s2b "store_true", AStoreTrue); (s2b "store_false", AStoreFalse);
   (s2b "append", AAppend); (s2b "count", ACount); (s2b "help", AHelp); (s2b "adv_help", AAdvHelp); (s2b "config", AConfig);
   (s2b "config_json", AConfigJson); (s2b "config_yaml", AConfigYaml); (s2b "config_plist", AConfigPlist); (s2b "config_print", APrintConfig)].
(** src/ArgParse.cc:117-136 ArgParseActionHasArg. *)
Definition has_arg (a : aaction) : bool :=
  match a with AStore | AAppend | AConfig | AConfigJson | AConfigYaml | AConfigPlist => true | _ => false end.
(** src/ArgParse.cc:138-157 ArgParseActionHasResult. *)
Definition has_result (a : aaction) : bool :=
  match a with AStore | AAppend | AStoreConst | AStoreTrue | AStoreFalse | ACount => true | _ => false end.

(** src/ArgParse.cc:198-234 ArgParseOptImpl.  [o_opt] is the map [opt]; the result is kept apart, in [astate]; the names of the groups
    are found in the groups.  [advanced] and the pointer back are left out.  [o_short] is 0 where there is none, and a
    character otherwise (the code takes an int and compares it as a char). *)
Record aopt := AOpt { o_id : N; o_path : path; o_short : N; o_long : bytes; o_action : aaction; o_type : vtype; o_required : bool;
  o_opt : list (bytes * value) }.
(** src/ArgParse.cc:263-290 ArgParseGroupImpl: the members by their ids. *)
Record agroup := AGroup { g_name : bytes; g_members : list N; g_required : bool; g_exclusive : bool }.
(** src/ArgParse.cc:292-451 ArgParseImpl: [option_map] in the order of the ids, [arguments], [groups], [option_count] and [resolve_conflicts].
    [options], [longOpts], [shortOpts] and [paths] are read off the options. *)
Record adesc := ADesc { d_opts : list aopt; d_args : list N; d_groups : list agroup; d_count : N; d_resolve : bool }.
(** src/ArgParse.cc:294-300. *)
Definition a_new : adesc := ADesc [] [] [] 256 false.

(** ** Describing *)

(** src/ArgParse.cc:385-408 CheckExisting: the short option that is left, the id, and option_count (a failure in AddOption
    after the count has gone up leaves it so; here the count of before is kept). *)
Definition check_existing (d : adesc) (p : path) (short : N) (long : bytes) : res (N * N * N) :=
  if existsb (fun o => beqb (path_string (o_path o)) (path_string p)) (d_opts d) then Throw RuntimeError else
  do short <- (if ((0 <? short) && existsb (fun o => o_short o =? short) (d_opts d))%bool
               then if d_resolve d then Ok 0 else Throw RuntimeError else Ok short);
  if (negb (beqb long []) && existsb (fun o => beqb (o_long o) long) (d_opts d))%bool then Throw RuntimeError
  else if 0 <? short then Ok (short, short, d_count d) else Ok (0, d_count d + 1, d_count d + 1).
(** src/ArgParse.cc:313-314, 355-357: option_map.insert, which keeps what is there. *)
Fixpoint insert_opt (o : aopt) (l : list aopt) : list aopt :=
  match l with
  | [] => [o]
  | x :: t => if o_id o <? o_id x then o :: l else if o_id o =? o_id x then l else x :: insert_opt o t
  end.
(** src/ArgParse.cc:1303-1323, the constructor; path.back() of an empty path is undefined. *)
Definition new_opt (id : N) (p : path) (short : N) (long help : bytes) (a : aaction) : res aopt :=
  match rev p with
  | [] => UB
  | e :: _ => let title := match e with PKey k => k | PIdx _ => path_string p end in
      Ok (AOpt id p short long a NullType false (mset (s2b "description") (VStr help) (mset (s2b "title") (VStr title) [])))
  end.
(** src/ArgParse.cc:302-323 AddOption. *)
Definition add_option (d : adesc) (keypath : bytes) (short : N) (long help : bytes) (a : aaction) : res adesc :=
  do p <- parse_path keypath;
  do (short, id, count) <- check_existing d p short long;
  if (beqb long [] && (short =? 0))%bool then Throw RuntimeError else
  do o <- new_opt id p short long help a;
  Ok (ADesc (insert_opt o (d_opts d)) (d_args d) (d_groups d) count (d_resolve d)).
(** opt.Set(key, v) on one option (src/ArgParse.cc:201, 458-594), and Init (1598-1606) of the keys that AddArgument sets. *)
Definition set_key (id : N) (k : String.string) (v : value) (d : adesc) : adesc :=
  ADesc (List.map (fun o => if o_id o =? id then AOpt (o_id o) (o_path o) (o_short o) (o_long o) (o_action o) (o_type o) (o_required o) (mset (s2b k) v (o_opt o)) else o) (d_opts d))
    (d_args d) (d_groups d) (d_count d) (d_resolve d).
(** impl->action, impl->type, impl->required (src/ArgParse.cc:467-502, 583-589). *)
Definition set_fields (id : N) (a : aaction) (t : vtype) (req : bool) (d : adesc) : adesc :=
  ADesc (List.map (fun o => if o_id o =? id then AOpt (o_id o) (o_path o) (o_short o) (o_long o) a t req (o_opt o) else o) (d_opts d))
    (d_args d) (d_groups d) (d_count d) (d_resolve d).
(** src/ArgParse.cc:348-361 AddArgument. *)
Definition add_argument (d : adesc) (keypath help : bytes) (a : aaction) : res adesc :=
  do p <- parse_path keypath;
  do (short, id, count) <- check_existing d p 0 [];
  do o <- new_opt id p 0 [] help a;
  Ok (set_key id "maxArgs" (VInt 1) (set_key id "minArgs" (VInt 1) (ADesc (insert_opt o (d_opts d)) (d_args d ++ [id]) (d_groups d) count (d_resolve d)))).
(** src/ArgParse.cc:555-558 Required: the parameter is not used. *)
Definition opt_required (id : N) (req : bool) (d : adesc) : adesc :=
  ADesc (List.map (fun o => if o_id o =? id then AOpt (o_id o) (o_path o) (o_short o) (o_long o) (o_action o) (o_type o) true (o_opt o) else o) (d_opts d))
    (d_args d) (d_groups d) (d_count d) (d_resolve d).

(** ** Parsing *)

(** opt.Contains(k) and opt[k] (src/ArgParse.cc:232). *)
Definition akey (k : String.string) (o : aopt) : option value := mget (s2b k) (o_opt o).
(** src/ArgParse.cc:340-346 GetOpt, 995 option_map.find. *)
Definition find_opt (d : adesc) (id : N) : option aopt := find (fun o => o_id o =? id) (d_opts d).
(** src/ArgParse.cc:331-338 At. *)
Definition at_path (d : adesc) (p : path) : option N :=
  option_map o_id (find (fun o => beqb (path_string (o_path o)) (path_string p)) (d_opts d)).

(** src/ArgParse.cc:233, 448-450: ArgParseOptImpl::result of every option, as a tree (what it shares with the description is not
    followed); print_help, print_adv_help and print_config together: whether the program ends with
    the printing of one of them. *)
Record astate := ASt { a_res : N -> value; a_print : bool }.
Definition a_init : astate := ASt (fun _ => VNull) false.
(** [Ok false]: the program has ended within PrintHelp (exit(0)). *)
Definition A := astate -> res bool * astate.
Definition aok : A := fun st => (Ok true, st).
Definition afail (e : exn) : A := fun st => (Throw e, st).
Definition alift {T} (r : res T) (k : T -> A) : A := fun st =>
  match r with Ok t => k t st | Throw e => (Throw e, st) | UB => (UB, st) | Abort => (Abort, st) | Fuel => (Fuel, st) end.
Definition aseq (m k : A) : A := fun st => match m st with (Ok true, st') => k st' | r => r end.
Fixpoint aeach {T} (f : T -> A) (l : list T) : A := match l with [] => aok | x :: t => aseq (f x) (aeach f t) end.
(** catch (const std::runtime_error &): the Variant exceptions are such (include/Variant/Exceptions.h:28-80). *)
Definition acatch (m h : A) : A := fun st =>
  match m st with
  | (Throw e, st') => match e with OutOfRange | LengthError => (Throw e, st') | _ => h st' end
  | r => r
  end.
Definition aset (id : N) (v : value) : A := fun st => (Ok true, ASt (fun i => if i =? id then v else a_res st i) (a_print st)).
Definition aget (id : N) (k : value -> A) : A := fun st => k (a_res st id) st.
Definition aprint : A := fun st => (Ok true, ASt (a_res st) true).

(** strtoll and strtoull with base 10 that have to take the whole text (src/ArgParse.cc:1524-1526, 1535-1537): sign and magnitude. *)
Definition whole10 (s : bytes) : option (bool * N) :=
  let '(neg, t) := take_sign (skip_space s) in
  let '(ds, r) := span is_digit t in
  match ds, r with _ :: _, [] => Some (neg, dec_value ds) | _, _ => None end.
(** The value of strtoull for them, src/ArgParse.cc:1535. *)
Definition ull10 (neg : bool) (m : N) : N := if 2^64 <=? m then 2^64 - 1 else if neg then wrap64 (2^64 - m) else m.

Section Run.
  (** strtod that takes the whole text (None: it does not); regcomp with REG_EXTENDED | REG_NOSUB, and regexec on what it compiled; getenv;
      the files, as the outcome of deserialising them as the action says; and whether errno is ERANGE when this text is parsed. *)
  Variable flt : bytes -> option spec_float.
  Variable rx : bytes -> option (bytes -> bool).
  Variable env : bytes -> option bytes.
  Variable load : aaction -> bytes -> res value.
  Variable stale : bytes -> bool.
  Variable d : adesc.

  (** src/ArgParse.cc:1485-1561 ParseArg, of a text without NUL; strlen of a null pointer is undefined. *)
  Definition parse_arg (o : aopt) (arg : option bytes) : res value :=
    if has_arg (o_action o) then
      match arg with
      | None => UB
      | Some s =>
          match o_type o with
          | BoolType => Ok (VBool (parse_bool s))
          | IntegerType =>
              match whole10 s with
              | None => Throw RuntimeError
              | Some (neg, m) =>
                  let z := if neg then (- Z.of_N m)%Z else Z.of_N m in
                  if (z <? - 2^63)%Z then Ok (VInt (- 2^63))
                  else if ((2^63 - 1 <? z) || ((z =? 2^63 - 1) && stale s))%Z%bool then Ok (VUns (ull10 neg m)) else Ok (VInt z)
              end
          | UnsignedType => match whole10 s with None => Throw RuntimeError | Some (neg, m) => Ok (VUns (ull10 neg m)) end
          | FloatType => match flt s with None => Throw RuntimeError | Some x => Ok (VFlt (ld_of_d x)) end
          | StringType => Ok (VStr s)
          | _ => Ok (match guess_scalar (stale s) s with
                     | GNull => VNull | GBool b => VBool b | GInt z => VInt z | GUns n => VUns n | GFlt x => VFlt (ld_of_d x) | GText t => VStr t
                     end)
          end
      end
    else match arg with Some _ => Throw RuntimeError | None => Ok VNull end.

  (** src/ArgParse.cc:1392-1476 CheckRequirements. *)
  (** One of the comparisons there, 1396-1448. *)
  Definition bound (k : String.string) (o : aopt) (bad : value -> res bool) : res unit :=
    match akey k o with None => Ok tt | Some b => do x <- bad b; if (x : bool) then Throw RuntimeError else Ok tt end.
  (** src/ArgParse.cc:1458-1461. *)
  Fixpoint any_equal (v : value) (l : list value) : res bool :=
    match l with [] => Ok false | x :: t => do e <- v_eq v x; if (e : bool) then Ok true else any_equal v t end.
  (** src/ArgParse.cc:1392-1476. *)
  Definition check_requirements (o : aopt) (v : value) : res unit :=
    do _ <- match v with
            | VStr s =>
                do _ <- bound "minLength" o (fun b => v_lt (VUns (wrap32 (llen s))) b);
                do _ <- bound "maxLength" o (fun b => v_gt (VUns (wrap32 (llen s))) b);
                match akey "pattern" o with
                | None => Ok tt
                | Some p => do p <- as_string p;
                    match rx (c_str p) with None => Throw RuntimeError | Some f => if f (c_str s) then Ok tt else Throw RuntimeError end
                end
            | VInt _ | VUns _ | VFlt _ =>
                do _ <- bound "minimum" o (fun b => v_lt v b);
                bound "maximum" o (fun b => v_gt v b)
            | _ => Ok tt
            end;
    match akey "enum" o with
    | None => Ok tt
    | Some (VList l) => do e <- any_equal v l; if (e : bool) then Ok tt else Throw RuntimeError
    | Some _ => Throw UnexpectedTypeError
    end.

  (** src/ArgParse.cc:1352, 1356, 1635: result.Append(x): null becomes a list. *)
  Definition aappend (id : N) (x : value) : A := aget id (fun r =>
    match r with VNull => aset id (VList [x]) | VList l => aset id (VList (l ++ [x])) | _ => afail UnexpectedTypeError end).
  (** src/ArgParse.cc:1325-1390 Handle, without the configuration files; opt["const"] of an option without one throws
      (src/Variant.cc:1296-1305, 1732-1733). *)
  Definition handle_plain (config : value -> A) (o : aopt) (arg : value) : A :=
    match o_action o with
    | AStore => alift (check_requirements o arg) (fun _ => aset (o_id o) arg)
    | AStoreConst => match akey "const" o with Some c => aset (o_id o) c | None => afail KeyError end
    | AStoreTrue => aset (o_id o) (match arg with VBool b => VBool b | _ => VBool true end)
    | AStoreFalse => aset (o_id o) (match arg with VBool b => VBool b | _ => VBool false end)
    | AAppend => aeach (fun x => alift (check_requirements o x) (fun _ => aappend (o_id o) x)) (match arg with VList l => l | _ => [arg] end)
    | ACount => aget (o_id o) (fun r =>
        alift (do n <- (if is_num (type_of arg) then as_int arg else Ok 1%Z); v_arith OpAdd r (VInt n)) (aset (o_id o)))
    | AHelp | AAdvHelp | APrintConfig => aprint
    | AConfig | AConfigJson | AConfigYaml | AConfigPlist => config arg
    | AUnknown => aok
    end.
  (** src/ArgParse.cc:1230-1266 MergeOptions. *)
  Fixpoint merge_options (h : N -> value -> A) (v : value) (p : path) {struct v} : A :=
    match v with
    | VNull | VBlob _ => aok
    | VBool _ | VInt _ | VUns _ | VFlt _ | VStr _ =>
        match at_path d p with None => aok | Some id => acatch (h id v) aok end
    | VList l =>
        let inner := (fix go (i : N) (l : list value) : A := match l with [] => aok | x :: t => aseq (merge_options h x (p ++ [PIdx i])) (go (i + 1) t) end) 0 l in
        match at_path d p with None => inner | Some id => acatch (h id v) inner end
    | VMap m => (fix go (m : list (bytes * value)) : A := match m with [] => aok | kv :: t => aseq (merge_options h (snd kv) (p ++ [PKey (fst kv)])) (go t) end) m
    end.
  (** Handle with the configuration files (src/ArgParse.cc:1372-1383); fuel bounds the depth of files that name files. *)
  Fixpoint handle (fuel : nat) (id : N) (arg : value) : A :=
    match find_opt d id with
    | None => fun st => (UB, st)
    | Some o => handle_plain (fun arg =>
        match fuel with
        | O => fun st => (Fuel, st)
        | S fuel => alift (do f <- as_string arg; load (o_action o) (c_str f)) (fun v => merge_options (handle fuel) v [])
        end) o arg
    end.
  (** src/ArgParse.cc:204 HandleOption. *)
  Definition handle_option (fuel : nat) (o : aopt) (arg : option bytes) : A :=
    alift (parse_arg o arg) (fun v => handle fuel (o_id o) v).

  (** src/ArgParse.cc:977-982: counters start at zero, then the environment. *)
  Definition from_env (o : aopt) : res (option bytes) :=
    match akey "env" o with None => Ok None | Some n => do n <- as_string n; Ok (env (c_str n)) end.
  (** The same lines. *)
  Definition a_start (fuel : nat) (o : aopt) : A :=
    aseq (match o_action o with ACount => aset (o_id o) (VUns 0) | _ => aok end)
         (alift (from_env o) (fun e => match e with None => aok | Some s => handle_option fuel o (Some s) end)).

  (** src/ArgParse.cc:992-996.  An answer of getopt_long: the id of an option and optarg, or '?'. *)
  Inductive gev := GOpt (id : N) (arg : option bytes) | GBad.
  (** src/ArgParse.cc:991-999; PrintHelp ends the program. *)
  Definition a_event (fuel : nat) (e : gev) : A :=
    match e with
    | GBad => fun st => (Ok false, st)
    | GOpt id arg => match find_opt d id with None => fun st => (Ok false, st) | Some o => handle_option fuel o arg end
    end.

  (** GetInto of an unsigned with default 0 (include/Variant/Variant.h:557-561, 465-476). *)
  Definition get_unsigned (k : String.string) (o : aopt) : res N :=
    match akey k o with None => Ok 0 | Some v => cast_unsigned 32 v end.
  (** src/ArgParse.cc:1002-1008: the sum is not used, but the conversions may throw. *)
  Fixpoint check_min (ids : list N) : A :=
    match ids with
    | [] => aok
    | id :: ids' => match find_opt d id with
                    | None => fun st => (UB, st)
                    | Some o => alift (get_unsigned "minArgs" o) (fun n => if 0 <? n then check_min ids' else aok)
                    end
    end.
  (** src/ArgParse.cc:1009-1035. *)
  Fixpoint take_args (fuel : nat) (ids : list N) (rest : list bytes) : A :=
    match ids with
    | [] => match rest with [] => aok | _ => afail RuntimeError end
    | id :: ids' =>
        match find_opt d id with
        | None => fun st => (UB, st)
        | Some o =>
            alift (get_unsigned "minArgs" o) (fun _ => alift (get_unsigned "maxArgs" o) (fun max =>
              if ((match ids' with [] => true | _ => false end) && negb (max =? 0) && (max <? llen rest))%bool then afail RuntimeError
              else let n := if max =? 0 then List.length rest else Nat.min (N.to_nat max) (List.length rest) in
                   aseq (aeach (fun s => handle_option fuel o (Some s)) (firstn n rest)) (take_args fuel ids' (skipn n rest))))
        end
    end.

  (** src/ArgParse.cc:797, 1620: IsNull. *)
  Definition is_null (v : value) : bool := match v with VNull => true | _ => false end.
  (** Whether a member of an exclusive group of this option has a result (src/ArgParse.cc:1610-1625). *)
  Definition rival (o : aopt) (st : astate) : bool :=
    existsb (fun g => g_exclusive g && existsb (N.eqb (o_id o)) (g_members g) && existsb (fun i => negb (is_null (a_res st i))) (g_members g))%bool (d_groups d).
  (** src/ArgParse.cc:1608-1676 FinalizeResult: the default, the number of arguments, and what is required. *)
  Definition a_default (o : aopt) : A := fun st =>
    match akey "default" o with
    | Some v => if (is_null (a_res st (o_id o)) && negb (rival o st))%bool then
                  match o_action o with
                  | AStore | AStoreConst | AStoreTrue | AStoreFalse => aset (o_id o) v st
                  | AAppend => aappend (o_id o) v st
                  | _ => aok st
                  end
                else aok st
    | None => aok st
    end.
  (** src/ArgParse.cc:1652, 1661: result.Size(). *)
  Definition vsize (v : value) : N := match v with VList l => wrap32 (llen l) | VMap m => wrap32 (llen m) | VStr s => wrap32 (llen s) | _ => 0 end.
  (** src/ArgParse.cc:1649-1675. *)
  Definition a_check (o : aopt) : A := aget (o_id o) (fun r =>
    if is_null r then if o_required o then afail RuntimeError else aok
    else match o_action o with
         | AAppend =>
             alift (match akey "maxArgs" o with
                    | None => Ok tt
                    | Some m => do z <- v_ne m (VInt 0); if (z : bool) then do l <- v_lt m (VUns (vsize r)); if (l : bool) then Throw RuntimeError else Ok tt else Ok tt
                    end) (fun _ =>
             alift (match akey "minArgs" o with
                    | None => Ok tt
                    | Some m => do g <- v_gt m (VUns (vsize r)); if (g : bool) then Throw RuntimeError else Ok tt
                    end) (fun _ => aok))
         | _ => aok
         end).
  (** src/ArgParse.cc:1608-1676. *)
  Definition a_finalize (o : aopt) : A := aseq (a_default o) (a_check o).
  (** src/ArgParse.cc:790-821 ArgParseGroupImpl::FinalizeResult. *)
  Definition g_finalize (g : agroup) : A := fun st =>
    if g_exclusive g then
      let n := List.length (filter (fun i => negb (is_null (a_res st i))) (nodup N.eq_dec (g_members g))) in
      if (1 <? n)%nat then (Throw RuntimeError, st) else if (g_required g && Nat.eqb n 0)%bool then (Throw RuntimeError, st) else (Ok true, st)
    else (Ok true, st).

  (** src/ArgParse.cc:947-1053 Parse, after the help options have been added, and what becomes of an exception: a message and exit(1),
      unless help or the configuration is to be printed (that FormResult may throw within PrintConfig is left out). *)
  Inductive aout := Done (st : astate) | Exit (code : N) | Broken (r : res bool).
  Definition a_all (fuel : nat) (evs : list gev) (rest : list bytes) : A :=
    aseq (aeach (a_start fuel) (d_opts d)) (aseq (aeach (a_event fuel) evs) (aseq (check_min (d_args d)) (aseq (take_args fuel (d_args d) rest)
      (aseq (aeach a_finalize (d_opts d)) (aeach g_finalize (d_groups d)))))).
  Definition a_run (fuel : nat) (evs : list gev) (rest : list bytes) (st : astate) : aout :=
    match a_all fuel evs rest st with
    | (Ok true, st') => if a_print st' then Exit 0 else Done st'
    | (Ok false, _) => Exit 0
    | (Throw _, st') => Exit (if a_print st' then 0 else 1)
    | (r, _) => Broken r
    end.
  (** src/ArgParse.cc:1055-1061, 1678-1682 FormResult; SetPath is that of C14 (HeapTree.set_path_tree). *)
  Fixpoint form_result (l : list aopt) (st : astate) (v : value) : res value :=
    match l with
    | [] => Ok v
    | o :: t =>
        if (has_result (o_action o) && negb (is_null (a_res st (o_id o))))%bool then
          match vset v (o_path o) (a_res st (o_id o)) with Some v' => form_result t st v' | None => Throw UnexpectedTypeError end
        else form_result t st v
    end.
  Definition a_form (st : astate) : res value := form_result (d_opts d) st (VMap []).
End Run.
