(** Model of the parameters of the emitters: the constructors, GetParam, GetParams, SetParam and
    SetParams of src/JSONEmitter.cc, src/YAMLEmitter.cc, src/XMLPLISTEmitter.cc, src/BundleHdrEmitter.cc,
    src/BundleHdrEmitter.h, src/MsgPackEmitter.h, and src/Emitter.cc:38-44. *)
From Verif Require Import Base CNum Float Value Convert Numeric Emit JSONEmitter.
Open Scope N_scope.

(** src/YAMLEmitter.h:64-96 Config. The styles are the numbers of the enumerations (64-77); [indent] and [width] are int,
    [precision] is unsigned. *)
Record yconf := YConf { y_scalar : N; y_map : N; y_list : N; y_begin : bool; y_end : bool; y_indent : Z; y_width : Z; y_prec : N }.
(** src/XMLPLISTEmitter.h:125-127. *)
Record xconf := XConf { x_pretty : bool; x_indent : N; x_prec : N }.

(** The five emitters with what their parameters decide. YAML: the indent and the width that libyaml was told, None if it
    was told nothing (src/YAMLEmitter.cc:184-189). XML: the number last handed to xmlTextWriterSetIndent
    (src/XMLPLISTEmitter.cc:209-215), an int. What the libraries do with these is not modelled, and neither is the rest of
    the state. *)
Inductive emitter :=
| EJson (p : jparams)
| EYaml (y : yconf) (told_indent told_width : option Z)
| EXml (x : xconf) (handed : Z)
| EBundle (prec : N)
| EMsgPack.

(** A member assigned from a conversion: if the conversion throws, the member keeps its value. *)
Definition assign {A} (e : emitter) (r : res A) (f : A -> emitter) : emitter * res unit :=
  match r with Ok a => (f a, Ok tt) | Throw x => (e, Throw x) | UB => (e, UB) | Abort => (e, Abort) | Fuel => (e, Fuel) end.

(** [unsigned = value.AsUnsigned()] and [int = value.AsInt()]: uintmax_t and intmax_t cut to 32 bits (the second is
    implementation-defined, and modular with the compilers in use). *)
Definition to_unsigned (v : value) : res N := do n <- as_uns v; Ok (wrap32 n).
Definition to_int (v : value) : res Z := do z <- as_int v; Ok (cut_signed 32 z).

(** src/YAMLEmitter.cc:37-42 param_keys, scalar_style_str, style_str. *)
Definition param_keys : list bytes :=
  [s2b "scalar_style"; s2b "map_style"; s2b "list_style"; s2b "implicit_document_begin"; s2b "implicit_document_end"; s2b "indent"; s2b "width"; s2b "precision"].
Definition scalar_style_str : list bytes := [s2b "any"; s2b "plain"; s2b "single quoted"; s2b "double quoted"; s2b "literal"; s2b "folded"].
Definition style_str : list bytes := [s2b "any"; s2b "block"; s2b "flow"].

(** The loops [for (int i = 0; names[i]; ++i) if (names[i] == key)] of src/YAMLEmitter.cc:69-74, 82-88, 94-100, 106-112, 145-149:
    the first index, counted from [i]. *)
Fixpoint index_of (i : N) (key : bytes) (names : list bytes) : option N :=
  match names with [] => None | n :: t => if beqb n key then Some i else index_of (i + 1) key t end.

(** src/YAMLEmitter.cc:77-133 SetParam(ConfigKeys, Variant). A style that is not one of the names changes nothing. *)
Definition yaml_set (y : yconf) (ti tw : option Z) (index : N) (v : value) : emitter * res unit :=
  let e := EYaml y ti tw in
  match index with
  | 0 => assign e (as_string v) (fun s => match index_of 0 s scalar_style_str with
      | Some i => EYaml (YConf i (y_map y) (y_list y) (y_begin y) (y_end y) (y_indent y) (y_width y) (y_prec y)) ti tw | None => e end)
  | 1 => assign e (as_string v) (fun s => match index_of 0 s style_str with
      | Some i => EYaml (YConf (y_scalar y) i (y_list y) (y_begin y) (y_end y) (y_indent y) (y_width y) (y_prec y)) ti tw | None => e end)
  | 2 => assign e (as_string v) (fun s => match index_of 0 s style_str with
      | Some i => EYaml (YConf (y_scalar y) (y_map y) i (y_begin y) (y_end y) (y_indent y) (y_width y) (y_prec y)) ti tw | None => e end)
  | 3 => assign e (as_bool v) (fun b => EYaml (YConf (y_scalar y) (y_map y) (y_list y) b (y_end y) (y_indent y) (y_width y) (y_prec y)) ti tw)
  | 4 => assign e (as_bool v) (fun b => EYaml (YConf (y_scalar y) (y_map y) (y_list y) (y_begin y) b (y_indent y) (y_width y) (y_prec y)) ti tw)
  | 5 => assign e (to_int v) (fun z => EYaml (YConf (y_scalar y) (y_map y) (y_list y) (y_begin y) (y_end y) z (y_width y) (y_prec y)) ti tw)
  | 6 => assign e (to_int v) (fun z => EYaml (YConf (y_scalar y) (y_map y) (y_list y) (y_begin y) (y_end y) (y_indent y) z (y_prec y)) ti tw)
  | 7 => assign e (to_unsigned v) (fun n => EYaml (YConf (y_scalar y) (y_map y) (y_list y) (y_begin y) (y_end y) (y_indent y) (y_width y) n) ti tw)
  | _ => (e, Ok tt)
  end.

(** src/XMLPLISTEmitter.cc:209-215 UpdateParams; the unsigned [indent] is passed as an int. *)
Definition xml_handed (x : xconf) : Z := if x_pretty x then cut_signed 32 (Z.of_N (x_indent x)) else 0%Z.
Definition xml_update (x : xconf) : emitter := EXml x (xml_handed x).

(** SetParam: src/JSONEmitter.cc:182-192 (three ifs one after the other, of which at most one can hold),
    src/YAMLEmitter.cc:68-75 and 387-389, src/XMLPLISTEmitter.cc:202-207, src/BundleHdrEmitter.h:63-65, src/MsgPackEmitter.h:42;
    src/Emitter.cc:145-147 forwards. *)
Definition set_param (e : emitter) (key : bytes) (v : value) : emitter * res unit :=
  match e with
  | EJson p =>
      if beqb key (s2b "pretty") then assign e (as_bool v) (fun b => EJson (JParams b (j_strict p) (j_indent p) (j_prec p)))
      else if beqb key (s2b "indent") then assign e (to_unsigned v) (fun n => EJson (JParams (j_pretty p) (j_strict p) n (j_prec p)))
      else if beqb key (s2b "precision") then assign e (to_unsigned v) (fun n => EJson (JParams (j_pretty p) (j_strict p) (j_indent p) n))
      else (e, Ok tt)
  | EYaml y ti tw => match index_of 0 key param_keys with Some i => yaml_set y ti tw i v | None => (e, Ok tt) end
  | EXml x h =>
      if beqb key (s2b "pretty") then assign e (as_bool v) (fun b => xml_update (XConf b (x_indent x) (x_prec x)))
      else if beqb key (s2b "indent") then assign e (to_unsigned v) (fun n => xml_update (XConf (x_pretty x) n (x_prec x)))
      else if beqb key (s2b "precision") then assign e (to_unsigned v) (fun n => xml_update (XConf (x_pretty x) (x_indent x) n))
      else (xml_update x, Ok tt)
  | EBundle n => if beqb key (s2b "precision") then assign e (to_unsigned v) EBundle else (e, Ok tt)
  | EMsgPack => (e, Ok tt)
  end.

(** src/Emitter.cc:38-44 EmitterImpl::SetParams on a map: one SetParam for each entry in order; an exception ends it. *)
Fixpoint set_each (e : emitter) (m : list (bytes * value)) : emitter * res unit :=
  match m with
  | [] => (e, Ok tt)
  | (k, v) :: t => match set_param e k v with (e', Ok tt) => set_each e' t | stop => stop end
  end.
(** src/YAMLEmitter.cc:57-66 Config::SetParams on a map: the names in the order of param_keys, those that the map has. The
    call there is SetParam((ConfigKeys)i, ...) with the index of the name, which is what SetParam finds for the name itself. *)
Fixpoint set_named (e : emitter) (names : list bytes) (m : list (bytes * value)) : emitter * res unit :=
  match names with
  | [] => (e, Ok tt)
  | k :: t =>
      match mget k m with
      | Some v => match set_param e k v with (e', Ok tt) => set_named e' t m | stop => stop end
      | None => set_named e t m
      end
  end.
(** Emitter::SetParams: src/Emitter.cc:149-151, 38-44; src/YAMLEmitter.cc:391-393, 57-66. Anything but a map is ignored. *)
Definition set_params (e : emitter) (params : value) : emitter * res unit :=
  match params with
  | VMap m => match e with EYaml _ _ _ => set_named e param_keys m | _ => set_each e m end
  | _ => (e, Ok tt)
  end.

(** src/YAMLEmitter.cc:153-174 GetParam(ConfigKeys): the first three index the names with [index], the number of the
    parameter, not with the style. *)
Definition yaml_get (y : yconf) (index : N) : value :=
  match index with
  | 0 => VStr (nth (N.to_nat index) scalar_style_str [])
  | 1 => VStr (nth (N.to_nat index) style_str [])
  | 2 => VStr (nth (N.to_nat index) style_str [])
  | 3 => VBool (y_begin y)
  | 4 => VBool (y_end y)
  | 5 => VInt (y_indent y)
  | 6 => VInt (y_width y)
  | 7 => VUns (y_prec y)
  | _ => VNull
  end.

(** GetParam: src/JSONEmitter.cc:167-172, src/YAMLEmitter.cc:144-151, src/XMLPLISTEmitter.cc:187-192,
    src/BundleHdrEmitter.h:58-61, src/MsgPackEmitter.h:40. *)
Definition get_param (e : emitter) (key : bytes) : value :=
  match e with
  | EJson p =>
      if beqb key (s2b "pretty") then VBool (j_pretty p) else if beqb key (s2b "indent") then VUns (j_indent p)
      else if beqb key (s2b "precision") then VUns (j_prec p) else VNull
  | EYaml y _ _ => match index_of 0 key param_keys with Some i => yaml_get y i | None => VNull end
  | EXml x _ =>
      if beqb key (s2b "pretty") then VBool (x_pretty x) else if beqb key (s2b "indent") then VUns (x_indent x)
      else if beqb key (s2b "precision") then VUns (x_prec x) else VNull
  | EBundle n => if beqb key (s2b "precision") then VUns n else VNull
  | EMsgPack => VNull
  end.

(** src/YAMLEmitter.cc:137-140: ret[key] = GetParam(i) for the names from index [i] on. *)
Fixpoint yaml_collect (y : yconf) (i : N) (names : list bytes) (m : list (bytes * value)) : list (bytes * value) :=
  match names with [] => m | k :: t => yaml_collect y (i + 1) t (mset k (yaml_get y i) m) end.
(** GetParams: src/JSONEmitter.cc:174-180, src/YAMLEmitter.cc:135-142, src/XMLPLISTEmitter.cc:194-200,
    src/BundleHdrEmitter.h:62, src/MsgPackEmitter.h:41. *)
Definition get_params (e : emitter) : value :=
  match e with
  | EJson p => VMap (mset (s2b "precision") (VUns (j_prec p)) (mset (s2b "indent") (VUns (j_indent p)) (mset (s2b "pretty") (VBool (j_pretty p)) [])))
  | EYaml y _ _ => VMap (yaml_collect y 0 param_keys [])
  | EXml x _ => VMap (mset (s2b "precision") (VUns (x_prec x)) (mset (s2b "indent") (VUns (x_indent x)) (mset (s2b "pretty") (VBool (x_pretty x)) [])))
  | EBundle n => VMap [(s2b "precision", VUns n)]
  | EMsgPack => VNull
  end.

(** The five constructors. *)
Inductive format := FJson | FYaml | FXml | FBundle | FMsgPack.

(** include/Variant/Variant.h:558-561 GetInto with a default; for bool and unsigned the cast is AsBool and AsUnsigned cut to
    the width (463, 470). *)
Definition get_into {A} (cast : value -> res A) (m : list (bytes * value)) (k : bytes) (d : A) : res A :=
  match mget k m with Some v => cast v | None => Ok d end.

(** src/YAMLEmitter.cc:44-55 the defaults of Config. *)
Definition ydefault : yconf := YConf 0 0 0 false false (-1) (-1) 17.
(** src/XMLPLISTEmitter.cc:44-45. *)
Definition xdefault : xconf := XConf false 4 17.

(** The constructors: src/JSONEmitter.cc:41-52, src/YAMLEmitter.cc:44-55 and 177-195, src/XMLPLISTEmitter.cc:43-63,
    src/BundleHdrEmitter.cc:16-21 (the parameters are not looked at), src/MsgPackEmitter.cc:20-24. An exception leaves no emitter; what
    the libraries throw is not modelled. *)
Definition make (f : format) (params : value) : res emitter :=
  match f with
  | FJson =>
      match params with
      | VMap m =>
          do a <- get_into as_bool m (s2b "pretty") (j_pretty jdefault);
          do b <- get_into as_bool m (s2b "strict") (j_strict jdefault);
          do c <- get_into to_unsigned m (s2b "indent") (j_indent jdefault);
          do d <- get_into to_unsigned m (s2b "precision") (j_prec jdefault);
          Ok (EJson (JParams a b c d))
      | _ => Ok (EJson jdefault)
      end
  | FYaml =>
      match set_params (EYaml ydefault None None) params with
      | (EYaml y _ _, Ok tt) => Ok (EYaml y (if (0 <? y_indent y)%Z then Some (y_indent y) else None) (if (0 <? y_width y)%Z then Some (y_width y) else None))
      | (e, Ok tt) => Ok e
      | (_, Throw x) => Throw x | (_, UB) => UB | (_, Abort) => Abort | (_, Fuel) => Fuel
      end
  | FXml =>
      match params with
      | VMap m =>
          do a <- get_into as_bool m (s2b "pretty") (x_pretty xdefault);
          do b <- get_into to_unsigned m (s2b "indent") (x_indent xdefault);
          do c <- get_into to_unsigned m (s2b "precision") (x_prec xdefault);
          Ok (xml_update (XConf a b c))
      | _ => Ok (xml_update xdefault)
      end
  | FBundle => Ok (EBundle 17)
  | FMsgPack => Ok EMsgPack
  end.
