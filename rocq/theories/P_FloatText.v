(** Property C41: floating-point text round trip. *)
From Verif Require Import Base CNum Float FloatText FloatTextProofs.
From Coq Require Import SpecFloat.
Open Scope Z_scope.

(** C41.  17 significant digits (the emitters' default precision,
    src/JSONEmitter.cc:43) identify every finite double: reading the printed text
    with correct rounding gives the identical double, including the sign of zero
    and subnormal values. *)
Theorem C41_float_text_roundtrip : forall x : spec_float,
  is_double x -> f_finite x = true -> strtod (print_g 17 x) = x.
Proof. exact strtod_print. Qed.
Print Assumptions C41_float_text_roundtrip.

(** Meeting the hypotheses: 0.1, the smallest subnormal, the largest double. *)
Example C41_case :
  let x := S754_finite false 7205759403792794 (-56) in
  let tiny := S754_finite true 1 (-1074) in
  let big := S754_finite false 9007199254740991 971 in
  is_double x /\ is_double tiny /\ is_double big /\
  print_g 17 x = s2b "0.10000000000000001" /\
  print_g 17 tiny = s2b "-4.9406564584124654e-324" /\
  print_g 17 big = s2b "1.7976931348623157e+308" /\
  strtod (s2b "1.7976931348623157e+308") = big.
Proof. repeat split; vm_compute; reflexivity. Qed.

(** 15 digits (digits10 without the "+2") would not be enough. *)
Example C41_fewer_digits : let x := S754_finite false 7205759403792795 (-56) in
  is_double x /\ strtod (print_g 15 x) <> x.
Proof. split; [vm_compute; reflexivity|vm_compute; discriminate]. Qed.
