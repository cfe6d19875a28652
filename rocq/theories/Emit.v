(** Emitting a Variant: the sequence of emitter calls it produces. *)
From Verif Require Import Base Float Value.
Open Scope N_scope.

(** The calls of the emitter interface (include/Variant/Emitter.h:33-75, class
    EmitterImpl).  The length of BeginMap/BeginList is a C++ int. *)
Inductive eev : Type :=
| EvBeginDoc | EvEndDoc
| EvBeginMap (len : Z) | EvEndMap
| EvBeginList (len : Z) | EvEndList
| EvNull | EvTrue | EvFalse
| EvStr (s : bytes)            (* Emit of a C string: the bytes before the NUL *)
| EvInt (z : Z) | EvUns (n : N)
| EvFlt (d : spec_float)       (* Emit(double) *)
| EvBlob (b : list bytes).

(** What a C string made by c_str() shows: the bytes before the first NUL
    (src/Emitter.cc:99-102 Emitter::Emit(const std::string&) passes v.c_str()). *)
Fixpoint c_str (s : bytes) : bytes :=
  match s with
  | [] => []
  | c :: t => if aeqb c (bchr 0) then [] else c :: c_str t
  end.

(** size_t to int, as in [e.BeginMap(v.size())] (include/Variant/Emitter.h:125, 135). *)
Definition int_of_size (n : nat) : Z := (((Z.of_nat n + 2^31) mod 2^32) - 2^31)%Z.

(** src/VariantEmitting.cc:29-66 operator<< of a Variant, with
    include/Variant/Emitter.h:123-142 for std::vector and std::map. *)
Fixpoint emit_value (v : value) : list eev :=
  match v with
  | VNull => [EvNull]
  | VBool b => [if b then EvTrue else EvFalse]
  | VInt z => [EvInt z]
  | VUns n => [EvUns n]
  | VFlt x => [EvFlt (d_of_ld x)]
  | VStr s => [EvStr (c_str s)]
  | VList l => EvBeginList (int_of_size (List.length l)) :: flat_map emit_value l ++ [EvEndList]
  | VMap m => EvBeginMap (int_of_size (List.length m)) ::
              flat_map (fun kv => EvStr (c_str (fst kv)) :: emit_value (snd kv)) m ++ [EvEndMap]
  | VBlob b => [EvBlob b]
  end.
