(** Model of the scalar conversions of src/Variant.cc (AsString). *)
From Verif Require Import Base CNum Float FloatText Value.
Open Scope N_scope.

(** printf %g from %#g: the zeros at the end of the fraction, and a point left at
    the end, are dropped (C / C++ library). *)
Fixpoint strip_zeros (r : bytes) : bytes :=
  match r with
  | c :: t => if aeqb c "0" then strip_zeros t else if aeqb c "." then t else r
  | [] => []
  end.
Definition strip_g (s : bytes) : bytes :=
  let '(mant, e) := span (fun c => negb (aeqb c "e")) s in rev (strip_zeros (rev mant)) ++ e.

(** [oss << x] for a long double with the default precision of 6.  NaN is printed
    without its sign. *)
Definition show_ld (x : spec_float) : bytes :=
  if f_finite x then strip_g (print_g 6 x) else print_g 6 x.

(** Variant::AsString: src/Variant.cc:601 (Null), 718-721 (Bool), 846-850 (Integer),
    905-909 (Unsigned), 966-970 (Float), 1060-1061 (String), 275-276 (the others). *)
Definition as_string (v : value) : res bytes :=
  match v with
  | VNull => Ok []
  | VBool true => Ok (s2b "true")
  | VBool false => Ok (s2b "false")
  | VInt z => Ok (dec_of_Z z)
  | VUns n => Ok (dec_of_N n)
  | VFlt x => Ok (show_ld x)
  | VStr s => Ok s
  | VList _ | VMap _ | VBlob _ => Throw UnableToConvertError
  end.
