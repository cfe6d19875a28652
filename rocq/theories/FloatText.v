(** Decimal text of doubles: iostream output and strtod, both correctly rounded
    (glibc).  These model the C / C++ library, not /repo. *)
From Verif Require Import Base CNum Float.
From Coq Require Import SpecFloat.
From Flocq Require Import IEEE754.BinarySingleNaN.
Open Scope Z_scope.

(** [a / b] rounded to the nearest integer, ties to even. *)
Definition div_half_even (a b : Z) : Z :=
  let q := a / b in
  match Z.compare (2 * (a mod b)) b with
  | Lt => q
  | Gt => q + 1
  | Eq => if Z.even q then q else q + 1
  end.

Definition ndigits10 (n : Z) : Z := Z.of_nat (List.length (dec_of_N (Z.to_N n))).

(** [a/b * 10^s] as a quotient of integers. *)
Definition scale10 (a b s : Z) : Z * Z := if 0 <=? s then (a * 10 ^ s, b) else (a, b * 10 ^ (- s)).

(** The X with [10^X <= num/den < 10^(X+1)]. *)
Definition dec_exponent (num den : Z) : Z :=
  let k := ndigits10 num - ndigits10 den in
  let (a, b) := scale10 num den (- k) in
  if b <=? a then k else k - 1.

(** The value [num/den] to [p] significant digits: digits as an integer D with
    [10^(p-1) <= D < 10^p] and exponent X, meaning [D * 10^(X-p+1)]. *)
Definition sci_digits (p : Z) (num den : Z) : Z * Z :=
  let X := dec_exponent num den in
  let (a, b) := scale10 num den (p - 1 - X) in
  let D := div_half_even a b in
  if D =? 10 ^ p then (10 ^ (p - 1), X + 1) else (D, X).

(** The exponent part of printf %e. *)
Definition exp_text (x : Z) : bytes :=
  let d := dec_of_N (Z.to_N (Z.abs x)) in
  "e"%char :: (if x <? 0 then "-"%char else "+"%char) ::
  (if (Z.abs x <? 10) then "0"%char :: d else d).

(** Layout of printf %#.{p}g for digits D and exponent X. *)
Definition layout_g (p : Z) (D X : Z) : bytes :=
  let ds := dec_of_N (Z.to_N D) in
  if ((-4 <=? X) && (X <? p))%bool then
    if 0 <=? X then firstn (Z.to_nat (X + 1)) ds ++ "."%char :: skipn (Z.to_nat (X + 1)) ds
    else "0"%char :: "."%char :: repeat "0"%char (Z.to_nat (- X - 1)) ++ ds
  else firstn 1 ds ++ "."%char :: skipn 1 ds ++ exp_text X.

(** [oss << std::setprecision(p) << std::showpoint << x] for a finite double,
    i.e. printf %#.{p}g; precision 0 counts as 1. *)
Definition print_g (p : Z) (x : spec_float) : bytes :=
  let p := Z.max p 1 in
  match x with
  | S754_zero s => (if s then ["-"%char] else []) ++ "0"%char :: "."%char :: repeat "0"%char (Z.to_nat (p - 1))
  | S754_finite s m e =>
      let '(D, X) := sci_digits p (if 0 <=? e then Zpos m * 2 ^ e else Zpos m) (if 0 <=? e then 1 else 2 ^ (- e)) in
      (if s then ["-"%char] else []) ++ layout_g p D X
  | S754_infinity s => (if s then ["-"%char] else []) ++ s2b "inf"
  | S754_nan => s2b "nan"
  end.

(** The double nearest to [(-1)^neg * D * 10^E]. *)
Definition dec_to_d (neg : bool) (D : N) (E : Z) : spec_float :=
  match D with
  | N0 => S754_zero neg
  | Npos p =>
      if 0 <=? E then d_round neg (Z.to_pos (Zpos p * 10 ^ E)) 0
      else let '(mz, ez, lz) := SFdiv_core_binary 53 1024 (Zpos p) 0 (10 ^ (- E)) 0 in
           binary_round_aux 53 1024 mode_NE neg mz ez lz
  end.

(** The exponent part accepted by strtod: nothing when not well formed. *)
Definition read_exp (s : bytes) : Z :=
  match s with
  | c :: t =>
      if (aeqb c "e" || aeqb c "E")%bool then
        let '(neg, t) := take_sign t in
        let '(ds, _) := span is_digit t in
        if neg then - Z.of_N (dec_value ds) else Z.of_N (dec_value ds)
      else 0
  | [] => 0
  end.

(** [strtod(s, NULL)] on decimal input; hexadecimal, "inf" and "nan" are not
    modelled (no caller passes them). *)
Definition strtod (s : bytes) : spec_float :=
  let '(neg, s) := take_sign (skip_space s) in
  let '(ip, s) := span is_digit s in
  let '(fp, s) := match s with
                  | c :: t => if aeqb c "." then span is_digit t else ([], s)
                  | [] => ([], s)
                  end in
  match ip ++ fp with
  | [] => S754_zero false
  | ds => dec_to_d neg (dec_value ds) (read_exp s - Z.of_nat (List.length fp))
  end.
