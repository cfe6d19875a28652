(** Floating-point data: double (binary64) and long double (x87 binary80), as
    IEEE 754 data in the sense of Coq's SpecFloat / Flocq.  NaN payloads are not
    modelled.  These definitions model the C++ types, not library code. *)
From Verif Require Import Base.
From Coq Require Import SpecFloat.
From Flocq Require Import IEEE754.BinarySingleNaN.
Export SpecFloat(spec_float(..)).
Open Scope Z_scope.

(** Well-formed doubles and long doubles. *)
Definition is_double (x : spec_float) : Prop := SpecFloat.valid_binary 53 1024 x = true.
Definition is_ldouble (x : spec_float) : Prop := SpecFloat.valid_binary 64 16384 x = true.

(** Rounding [(-1)^s * m * 2^e] to double / long double, nearest even, with
    overflow to infinity. *)
Definition d_round (s : bool) (m : positive) (e : Z) : spec_float := binary_round 53 1024 mode_NE s m e.
Definition ld_round (s : bool) (m : positive) (e : Z) : spec_float := binary_round 64 16384 mode_NE s m e.

(** (double)x for a long double x, and (long double)x for a double x. *)
Definition d_of_ld (x : spec_float) : spec_float :=
  match x with S754_finite s m e => d_round s m e | _ => x end.
Definition ld_of_d (x : spec_float) : spec_float :=
  match x with S754_finite s m e => ld_round s m e | _ => x end.

(** (long double)z for an integer z. *)
Definition ld_of_Z (z : Z) : spec_float :=
  match z with Z0 => S754_zero false | Zpos p => ld_round false p 0 | Zneg p => ld_round true p 0 end.

Definition f_nan (x : spec_float) : bool := match x with S754_nan => true | _ => false end.
Definition f_inf (x : spec_float) : bool := match x with S754_infinity _ => true | _ => false end.
Definition f_finite (x : spec_float) : bool := match x with S754_nan | S754_infinity _ => false | _ => true end.
