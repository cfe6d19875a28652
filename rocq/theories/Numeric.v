(** Model of the numeric side of src/Variant.cc: scalar conversions, comparison and
    arithmetic, on values seen as trees.  References and proxies forward to the
    value they denote (src/Variant.cc:1477-1942) and are not represented here. *)
From Verif Require Import Base CNum Float FloatText Value Convert ParseBool Blob.
From Coq Require Import SpecFloat.
From Flocq Require Import Core IEEE754.BinarySingleNaN.
Open Scope Z_scope.

(** include/Variant/VariantDefines.h:40-52 Type_t (the types a value can have). *)
Inductive vtype := NullType | BoolType | IntegerType | UnsignedType | FloatType
                 | StringType | ListType | MapType | BlobType.

(** GetType: src/Variant.cc:590, 703, 831, 890, 951, 1031, 1139, 1278, 1391. *)
Definition type_of (v : value) : vtype :=
  match v with
  | VNull => NullType | VBool _ => BoolType | VInt _ => IntegerType | VUns _ => UnsignedType
  | VFlt _ => FloatType | VStr _ => StringType | VList _ => ListType | VMap _ => MapType
  | VBlob _ => BlobType
  end.

(** ** long double arithmetic: the IEEE 754 operations of the x87 type, round to
    nearest even (these model the C++ operators, not library code). *)

Definition ld_neg (x : spec_float) : spec_float :=
  match x with
  | S754_nan => S754_nan
  | S754_infinity s => S754_infinity (negb s)
  | S754_finite s m e => S754_finite (negb s) m e
  | S754_zero s => S754_zero (negb s)
  end.

(** [z * 2^e] rounded; an exact zero gets the sign [s0]. *)
Definition ld_scale (s0 : bool) (z e : Z) : spec_float :=
  match z with
  | Z0 => S754_zero s0
  | Zpos p => ld_round false p e
  | Zneg p => ld_round true p e
  end.

(** The integer of a significand at the smaller exponent [e0]. *)
Definition at_exp (s : bool) (m : positive) (e e0 : Z) : Z := cond_Zopp s (Zpos m * 2 ^ (e - e0)).

Definition ld_add (x y : spec_float) : spec_float :=
  match x, y with
  | S754_nan, _ | _, S754_nan => S754_nan
  | S754_infinity sx, S754_infinity sy => if Bool.eqb sx sy then x else S754_nan
  | S754_infinity _, _ => x
  | _, S754_infinity _ => y
  | S754_zero sx, S754_zero sy => if Bool.eqb sx sy then x else S754_zero false
  | S754_zero _, _ => y
  | _, S754_zero _ => x
  | S754_finite sx mx ex, S754_finite sy my ey =>
      let e := Z.min ex ey in
      ld_scale false (at_exp sx mx ex e + at_exp sy my ey e) e
  end.
Definition ld_sub (x y : spec_float) : spec_float := ld_add x (ld_neg y).

Definition ld_mul (x y : spec_float) : spec_float :=
  match x, y with
  | S754_nan, _ | _, S754_nan => S754_nan
  | S754_infinity _, S754_zero _ | S754_zero _, S754_infinity _ => S754_nan
  | S754_infinity sx, (S754_infinity sy | S754_finite sy _ _)
  | S754_finite sx _ _, S754_infinity sy => S754_infinity (xorb sx sy)
  | S754_zero sx, (S754_zero sy | S754_finite sy _ _)
  | S754_finite sx _ _, S754_zero sy => S754_zero (xorb sx sy)
  | S754_finite sx mx ex, S754_finite sy my ey => ld_round (xorb sx sy) (mx * my) (ex + ey)
  end.

Definition ld_div (x y : spec_float) : spec_float :=
  match x, y with
  | S754_nan, _ | _, S754_nan => S754_nan
  | S754_infinity _, S754_infinity _ | S754_zero _, S754_zero _ => S754_nan
  | S754_infinity sx, (S754_zero sy | S754_finite sy _ _)
  | S754_finite sx _ _, S754_zero sy => S754_infinity (xorb sx sy)
  | S754_zero sx, (S754_infinity sy | S754_finite sy _ _)
  | S754_finite sx _ _, S754_infinity sy => S754_zero (xorb sx sy)
  | S754_finite sx mx ex, S754_finite sy my ey =>
      let '(mz, ez, lz) := SFdiv_core_binary 64 16384 (Zpos mx) ex (Zpos my) ey in
      binary_round_aux 64 16384 mode_NE (xorb sx sy) mz ez lz
  end.

(** fmod on long double: the exact remainder of the truncated quotient, with the
    sign of the dividend. *)
Definition ld_fmod (x y : spec_float) : spec_float :=
  match x, y with
  | S754_nan, _ | _, S754_nan => S754_nan
  | S754_infinity _, _ | _, S754_zero _ => S754_nan
  | _, S754_infinity _ | S754_zero _, _ => x
  | S754_finite sx mx ex, S754_finite sy my ey =>
      let e := Z.min ex ey in
      ld_scale sx (Z.rem (at_exp sx mx ex e) (at_exp sy my ey e)) e
  end.

(** Truncation towards zero of a finite value. *)
Definition f_trunc (x : spec_float) : option Z :=
  match x with
  | S754_zero _ => Some 0
  | S754_finite s m e =>
      Some (cond_Zopp s (if 0 <=? e then Zpos m * 2 ^ e else Zpos m / 2 ^ (- e)))
  | _ => None
  end.

(** ** Integer conversions of the C++ language *)

(** (uintmax_t)z: modulo 2^64. *)
Definition to_u64 (z : Z) : N := Z.to_N (z mod 2 ^ 64).
(** (intmax_t)n: two's complement (implementation defined before C++20; gcc wraps). *)
Definition to_i64 (n : N) : Z := let z := Z.of_N n in if z <? 2 ^ 63 then z else z - 2 ^ 64.
Definition in_i64 (z : Z) : bool := (- 2 ^ 63 <=? z) && (z <? 2 ^ 63).
Definition in_u64 (z : Z) : bool := (0 <=? z) && (z <? 2 ^ 64).

(** Conversion of a floating value to an integer type truncates; the behaviour is
    undefined when the truncated value does not fit (C++ [conv.fpint]). *)
Definition f_to_int (x : spec_float) : res Z :=
  match f_trunc x with Some z => if in_i64 z then Ok z else UB | None => UB end.
Definition f_to_uns (x : spec_float) : res N :=
  match f_trunc x with Some z => if in_u64 z then Ok (Z.to_N z) else UB | None => UB end.

(** ** [std::istringstream >> x] (libstdc++ num_get, "C" locale, decimal) *)

Definition istream_ll (s : bytes) : option Z :=
  let '(neg, t) := take_sign (skip_space s) in
  let '(ds, _) := span is_digit t in
  match ds with
  | [] => None
  | _ => let z := if neg then - Z.of_N (dec_value ds) else Z.of_N (dec_value ds) in
         if in_i64 z then Some z else None
  end.

(** The long double nearest to [(-1)^neg * D * 10^E]. *)
Definition dec_to_ld (neg : bool) (D : N) (E : Z) : spec_float :=
  match D with
  | N0 => S754_zero neg
  | Npos p =>
      if 0 <=? E then ld_round neg (Z.to_pos (Zpos p * 10 ^ E)) 0
      else let '(mz, ez, lz) := SFdiv_core_binary 64 16384 (Zpos p) 0 (10 ^ (- E)) 0 in
           binary_round_aux 64 16384 mode_NE neg mz ez lz
  end.

(** The exponent part: an "e" must be followed by digits, else the read fails. *)
Definition istream_exp (s : bytes) : option Z :=
  match s with
  | c :: t =>
      if (aeqb c "e" || aeqb c "E")%bool then
        let '(neg, t) := take_sign t in
        let '(ds, _) := span is_digit t in
        match ds with
        | [] => None
        | _ => Some (if neg then - Z.of_N (dec_value ds) else Z.of_N (dec_value ds))
        end
      else Some 0
  | [] => Some 0
  end.

(** The characters of a decimal number are collected and given to strtold; overflow
    is a failure, underflow is not. *)
Definition istream_ld (s : bytes) : option spec_float :=
  let '(neg, s) := take_sign (skip_space s) in
  let '(ip, s) := span is_digit s in
  let '(fp, s) := match s with
                  | c :: t => if aeqb c "." then span is_digit t else ([], s)
                  | [] => ([], s)
                  end in
  match ip ++ fp with
  | [] => None
  | ds => match istream_exp s with
          | None => None
          | Some e => let x := dec_to_ld neg (dec_value ds) (e - Z.of_nat (List.length fp)) in
                      if f_finite x then Some x else None
          end
  end.

(** ** Variant::AsBool, AsLongDouble, AsInt, AsUnsigned *)

(** src/Variant.cc:593 (Null), 706 (Bool), 834 (Integer), 893 (Unsigned), 954 (Float),
    1033 (String, src/ParseBool.cc), 263 (the others). *)
Definition as_bool (v : value) : res bool :=
  match v with
  | VNull => Ok false
  | VBool b => Ok b
  | VInt z => Ok (negb (z =? 0))
  | VUns n => Ok (negb (n =? 0)%N)
  | VFlt x => Ok (match x with S754_zero _ => false | _ => true end)
  | VStr s => Ok (parse_bool s)
  | _ => Throw UnableToConvertError
  end.

Definition conv {A} (o : option A) : res A :=
  match o with Some x => Ok x | None => Throw UnableToConvertError end.

(** src/Variant.cc:595, 709, 837, 896, 957, 1036-1042, 266. *)
Definition as_ld (v : value) : res spec_float :=
  match v with
  | VNull => Ok (S754_zero false)
  | VBool b => Ok (ld_of_Z (if b then 1 else 0))
  | VInt z => Ok (ld_of_Z z)
  | VUns n => Ok (ld_of_Z (Z.of_N n))
  | VFlt x => Ok x
  | VStr s => conv (istream_ld s)
  | _ => Throw UnableToConvertError
  end.

(** src/Variant.cc:597, 712, 840, 899, 960, 1044-1050, 269. *)
Definition as_uns (v : value) : res N :=
  match v with
  | VNull => Ok 0%N
  | VBool b => Ok (if b then 1%N else 0%N)
  | VInt z => Ok (to_u64 z)
  | VUns n => Ok n
  | VFlt x => f_to_uns x
  | VStr s => conv (istream_ull s)
  | _ => Throw UnableToConvertError
  end.

(** src/Variant.cc:599, 715, 843, 902, 963, 1052-1058, 272. *)
Definition as_int (v : value) : res Z :=
  match v with
  | VNull => Ok 0
  | VBool b => Ok (if b then 1 else 0)
  | VInt z => Ok z
  | VUns n => Ok (to_i64 n)
  | VFlt x => f_to_int x
  | VStr s => conv (istream_ll s)
  | _ => Throw UnableToConvertError
  end.

(** include/Variant/Variant.h: AsDouble is (double)AsLongDouble(). *)
Definition as_double (v : value) : res spec_float := do x <- as_ld v; Ok (d_of_ld x).

(** include/Variant/Variant.h:465-476 variant_cast to a narrower integer: the
    result of AsInt / AsUnsigned cut to [w] bits. *)
Definition cut_signed (w z : Z) : Z := let r := z mod 2 ^ w in if r <? 2 ^ (w - 1) then r else r - 2 ^ w.
Definition cast_signed (w : Z) (v : value) : res Z := do z <- as_int v; Ok (cut_signed w z).
Definition cast_unsigned (w : N) (v : value) : res N := (do n <- as_uns v; Ok (n mod 2 ^ w)%N).

(** ** Comparison *)

Definition is_num (t : vtype) : bool :=
  match t with IntegerType | UnsignedType | FloatType => true | _ => false end.

Definition vtype_eqb (a b : vtype) : bool :=
  match a, b with
  | NullType, NullType | BoolType, BoolType | IntegerType, IntegerType
  | UnsignedType, UnsignedType | FloatType, FloatType | StringType, StringType
  | ListType, ListType | MapType, MapType | BlobType, BlobType => true
  | _, _ => false
  end.

(** src/Variant.cc:481-492 VTable::Comparable. *)
Definition comparable (a b : value) : bool :=
  vtype_eqb (type_of a) (type_of b) || (is_num (type_of a) && is_num (type_of b)).

(** The comparison in src/Variant.cc:756-758 on two long doubles: both [<] and [>] are
    false when an operand is NaN. *)
Definition ld_order (x y : spec_float) : Z :=
  match SFcompare x y with Some Lt => -1 | Some Gt => 1 | _ => 0 end.

(** src/Variant.cc:752-761 Numeric::Compare. *)
Definition num_compare (a b : value) : res Z :=
  if comparable a b then do x <- as_ld a; do y <- as_ld b; Ok (ld_order x y) else Ok 1.

Definition cmp_sign (c : comparison) : Z := match c with Lt => -1 | Eq => 0 | Gt => 1 end.

(** Variant::Compare: src/Variant.cc:669-671 (Null), 723-729 (Bool), 752-761 (numbers),
    1069-1075 (String, only the sign is kept), 1209-1215 (List), 1335-1341 (Map),
    1403-1411 (Blob; a null BlobPtr is not represented).  std::vector and std::map
    [!=]: sizes, then elements (for maps: pairs of key and value) in order, through
    operator== of include/Variant/Variant.h:418. *)
Fixpoint vcompare (a b : value) : res Z :=
  match a with
  | VNull => Ok (if comparable a b then 0 else 1)
  | VBool x => Ok (match b with VBool y => if Bool.eqb x y then 0 else 1 | _ => 1 end)
  | VInt _ | VUns _ | VFlt _ => num_compare a b
  | VStr s => Ok (match b with VStr t => cmp_sign (bcmp s t) | _ => 1 end)
  | VList l =>
      match b with
      | VList r =>
          if (List.length l =? List.length r)%nat then
            do same <- (fix go l r :=
              match l, r with
              | x :: l', y :: r' => do c <- vcompare x y; if c =? 0 then go l' r' else Ok false
              | _, _ => Ok true
              end) l r;
            Ok (if (same : bool) then 0 else 1)
          else Ok 1
      | _ => Ok 1
      end
  | VMap m =>
      match b with
      | VMap r =>
          if (List.length m =? List.length r)%nat then
            do same <- (fix go m r :=
              match m, r with
              | (k, x) :: m', (k', y) :: r' =>
                  if beqb k k' then do c <- vcompare x y; if c =? 0 then go m' r' else Ok false
                  else Ok false
              | _, _ => Ok true
              end) m r;
            Ok (if (same : bool) then 0 else 1)
          else Ok 1
      | _ => Ok 1
      end
  | VBlob x => match b with VBlob y => blob_compare x y | _ => Ok 1 end
  end.

(** include/Variant/Variant.h:418-423. *)
Definition v_eq (a b : value) : res bool := do c <- vcompare a b; Ok (c =? 0).
Definition v_ne (a b : value) : res bool := do c <- vcompare a b; Ok (negb (c =? 0)).
Definition v_lt (a b : value) : res bool := do c <- vcompare a b; Ok (c <? 0).
Definition v_gt (a b : value) : res bool := do c <- vcompare a b; Ok (c >? 0).
Definition v_le (a b : value) : res bool := do c <- vcompare a b; Ok (c <=? 0).
Definition v_ge (a b : value) : res bool := do c <- vcompare a b; Ok (c >=? 0).

(** ** Arithmetic *)

(** src/Variant.cc:45-107 NumericUpcast. *)
Definition numeric_upcast (t1 t2 : vtype) : res vtype :=
  match t1 with
  | IntegerType =>
      match t2 with
      | IntegerType => Ok IntegerType
      | UnsignedType => Ok UnsignedType
      | FloatType => Ok FloatType
      | BlobType => Throw UnknownTypeError
      | _ => Throw UnableToConvertError
      end
  | UnsignedType =>
      match t2 with
      | IntegerType => Ok UnsignedType
      | UnsignedType => Ok UnsignedType
      | FloatType => Ok FloatType
      | BlobType => Throw UnknownTypeError
      | _ => Throw UnableToConvertError
      end
  | FloatType =>
      match t2 with
      | IntegerType => Ok FloatType
      | UnsignedType => Ok FloatType
      | FloatType => Ok FloatType
      | BlobType => Throw UnknownTypeError
      | _ => Throw UnableToConvertError
      end
  | BlobType => Throw UnknownTypeError
  | _ => Throw UnableToConvertError
  end.

Inductive arith := OpAdd | OpSub | OpMul | OpDiv | OpRem.

(** intmax_t operators: overflow, division by zero and INTMAX_MIN / -1 (also for
    [%]) are undefined. *)
Definition int_op (op : arith) (a b : Z) : res Z :=
  let fit z := if in_i64 z then Ok z else UB in
  match op with
  | OpAdd => fit (a + b)
  | OpSub => fit (a - b)
  | OpMul => fit (a * b)
  | OpDiv => if b =? 0 then UB else fit (Z.quot a b)
  | OpRem => if b =? 0 then UB else if in_i64 (Z.quot a b) then Ok (Z.rem a b) else UB
  end.

(** uintmax_t operators: modulo 2^64; division by zero is undefined. *)
Definition uns_op (op : arith) (a b : N) : res N :=
  (match op with
   | OpAdd => Ok (wrap64 (a + b))
   | OpSub => Ok (wrap64 (a + 2 ^ 64 - b))
   | OpMul => Ok (wrap64 (a * b))
   | OpDiv => if b =? 0 then UB else Ok (a / b)
   | OpRem => if b =? 0 then UB else Ok (a mod b)
   end)%N.

(** long double operators and src/Variant.cc:36-40 my_modulus<long double>. *)
Definition ld_op (op : arith) (x y : spec_float) : spec_float :=
  match op with
  | OpAdd => ld_add x y
  | OpSub => ld_sub x y
  | OpMul => ld_mul x y
  | OpDiv => ld_div x y
  | OpRem => ld_fmod x y
  end.

(** src/Variant.cc:763-792 NumericOperation. *)
Definition numeric_operation (op : arith) (a b : value) : res value :=
  do t <- numeric_upcast (type_of a) (type_of b);
  match t with
  | IntegerType => do x <- as_int a; do y <- as_int b; do z <- int_op op x y; Ok (VInt z)
  | UnsignedType => do x <- as_uns a; do y <- as_uns b; do z <- uns_op op x y; Ok (VUns z)
  | FloatType => do x <- as_ld a; do y <- as_ld b; Ok (VFlt (ld_op op x y))
  | _ => Throw NotNumericTypeError
  end.

(** [a op b]: src/Variant.cc:794-807 for a number on the left, 503-516 (VTable) for
    anything else; include/Variant/Variant.h:425-444 the binary operators copy the
    left operand first. *)
Definition v_arith (op : arith) (a b : value) : res value :=
  if is_num (type_of a) then numeric_operation op a b else Throw NotNumericTypeError.

(** Neg: src/Variant.cc:858 (signed overflow undefined), 917 (modulo 2^64), 978, 500. *)
Definition v_neg (a : value) : res value :=
  match a with
  | VInt z => if in_i64 (- z) then Ok (VInt (- z)) else UB
  | VUns n => Ok (VUns (wrap64 (2 ^ 64 - n)))
  | VFlt x => Ok (VFlt (ld_neg x))
  | _ => Throw NotNumericTypeError
  end.

(** Incr, Decr: src/Variant.cc:852-856, 911-915, 972-976, 494-498. *)
Definition v_incr (a : value) : res value :=
  match a with
  | VInt z => do r <- int_op OpAdd z 1; Ok (VInt r)
  | VUns n => do r <- uns_op OpAdd n 1%N; Ok (VUns r)
  | VFlt x => Ok (VFlt (ld_add x (ld_of_Z 1)))
  | _ => Throw NotNumericTypeError
  end.
Definition v_decr (a : value) : res value :=
  match a with
  | VInt z => do r <- int_op OpSub z 1; Ok (VInt r)
  | VUns n => do r <- uns_op OpSub n 1%N; Ok (VUns r)
  | VFlt x => Ok (VFlt (ld_sub x (ld_of_Z 1)))
  | _ => Throw NotNumericTypeError
  end.
