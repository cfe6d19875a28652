(** Model of GuessScalar: src/GuessScalar.cc. *)
From Verif Require Import Base CNum Float FloatText Emit Regex.
Open Scope N_scope.

(** Transcription of match_string, src/GuessScalar.cc:17-27. *)
Fixpoint rword (w : bytes) : re :=
  match w with [] => REps | c :: t => RSeq (RChr (aeqb c)) (rword t) end.
Fixpoint ralts (l : list re) : re :=
  match l with [] => RNone | [r] => r | r :: t => RAlt r (ralts t) end.
Definition ropt (r : re) : re := RAlt r REps.
Definition rplus (r : re) : re := RSeq r (RStar r).
Definition rdigit : re := RChr is_digit.
Definition rsign : re := ropt (RChr (fun c => aeqb c "-" || aeqb c "+")).
(** [0-7] and [0-9a-fA-F], in the C locale. *)
Definition is_odigit (c : ascii) : bool := (48 <=? bval c) && (bval c <=? 55).
Definition is_xdigit (c : ascii) : bool :=
  is_digit c || ((97 <=? bval c) && (bval c <=? 102)) || ((65 <=? bval c) && (bval c <=? 70)).

Definition re_null : re := ralts [rword (s2b "null"); rword (s2b "Null"); rword (s2b "NULL"); rword (s2b "~")].
Definition re_true : re := ralts [rword (s2b "true"); rword (s2b "True"); rword (s2b "TRUE")].
Definition re_false : re := ralts [rword (s2b "false"); rword (s2b "False"); rword (s2b "FALSE")].
Definition re_int10 : re := RSeq rsign (rplus rdigit).
Definition re_int8 : re := RSeq (rword (s2b "0o")) (rplus (RChr is_odigit)).
Definition re_int16 : re := RSeq (rword (s2b "0x")) (rplus (RChr is_xdigit)).
Definition re_float : re :=
  RSeq rsign
    (RSeq (RAlt (RSeq (rword (s2b ".")) (rplus rdigit))
                (RSeq (rplus rdigit) (ropt (RSeq (rword (s2b ".")) (RStar rdigit)))))
          (ropt (RSeq (RChr (fun c => aeqb c "e" || aeqb c "E")) (RSeq rsign (rplus rdigit))))).
Definition re_inf : re := ralts [RSeq rsign (rword (s2b ".inf")); rword (s2b ".Inf"); rword (s2b ".INF")].
Definition re_nan : re := ralts [rword (s2b ".nan"); rword (s2b ".Nan"); rword (s2b ".NAN")].

(** What is passed to the parser actions. *)
Inductive guess :=
| GNull
| GBool (b : bool)
| GInt (z : Z)
| GUns (n : N)
| GFlt (d : spec_float)
| GText (s : bytes).

(** Text after the leading white space, and the same without the trailing white space:
    the alternatives contain no white space, so the bracketed group of the pattern can
    only match the latter. *)
Definition drop_trailing (s : bytes) : bytes := rev (skip_space (rev s)).

(** strtoll(s, 0, 10) on a sign and digits: the value and whether errno becomes ERANGE. *)
Definition strtoll10 (s : bytes) : Z * bool :=
  let '(neg, t) := take_sign s in
  let '(ds, _) := span is_digit t in
  let v := (if neg then - Z.of_N (dec_value ds) else Z.of_N (dec_value ds))%Z in
  if (v <? - 2^63)%Z then ((- 2^63)%Z, true)
  else if (2^63 - 1 <? v)%Z then ((2^63 - 1)%Z, true)
  else (v, false).

Definition saturate64 (n : N) : N := if n <? 2^64 then n else 2^64 - 1.

(** strtoull(s, 0, 10) on an optional plus and digits; a minus would negate modulo 2^64
    (only reached with values of 2^63 - 1 or more). *)
Definition strtoull10 (s : bytes) : N :=
  let '(neg, t) := take_sign s in
  let '(ds, _) := span is_digit t in
  let v := dec_value ds in
  if v <? 2^64 then (if neg then wrap64 (2^64 - v) else v) else 2^64 - 1.

(** The value of a digit in bases 8 and 16. *)
Definition xdigit_val (c : ascii) : N :=
  if is_digit c then bval c - 48 else if 97 <=? bval c then bval c - 87 else bval c - 55.

(** strtoull(s, 0, base) on digits of the base: no prefix can follow the one skipped. *)
Definition strtoull_base (base : N) (isd : ascii -> bool) (s : bytes) : N :=
  let '(ds, _) := span isd s in
  saturate64 (fold_left (fun a c => base * a + xdigit_val c) ds 0).

(** src/GuessScalar.cc:70-116.  [stale]: errno was already ERANGE (it is not cleared before
    strtoll, :84-85).  The text is followed by a NUL, and regexec and the strto functions
    stop at the first NUL.  The order of the tests is the order of the groups in the
    pattern: when several alternatives match the same text the first one is reported, which
    only concerns integers, also matched by the float alternative. *)
Definition guess_scalar (stale : bool) (value : bytes) : guess :=
  let rest := skip_space (c_str value) in
  let core := drop_trailing rest in
  if rmatch re_null core then GNull
  else if rmatch re_true core then GBool true
  else if rmatch re_false core then GBool false
  else if rmatch re_int10 core then
    let '(v, erange) := strtoll10 rest in
    if ((v =? 2^63 - 1)%Z && (stale || erange))%bool then GUns (strtoull10 rest) else GInt v
  else if rmatch re_int8 core then GUns (strtoull_base 8 is_odigit (skipn 2 rest))
  else if rmatch re_int16 core then GUns (strtoull_base 16 is_xdigit (skipn 2 rest))
  else if rmatch re_float core then GFlt (strtod rest)
  else if rmatch re_inf core then
    GFlt (S754_infinity (match rest with c :: _ => aeqb c "-" | [] => false end))
  else if rmatch re_nan core then GFlt S754_nan
  else GText value.

Example guess_1 : guess_scalar false (s2b " -42 ") = GInt (-42).
Proof. vm_compute. reflexivity. Qed.
Example guess_2 : guess_scalar false (s2b "18446744073709551615") = GUns 18446744073709551615.
Proof. vm_compute. reflexivity. Qed.
Example guess_3 : guess_scalar false (s2b "0xfF") = GUns 255.
Proof. vm_compute. reflexivity. Qed.
Example guess_4 : guess_scalar false (s2b "-.5e1") = GFlt (S754_finite true 5629499534213120 (-50)).
Proof. vm_compute. reflexivity. Qed.
Example guess_5 : guess_scalar false (s2b "-.Inf") = GText (s2b "-.Inf").
Proof. vm_compute. reflexivity. Qed.
Example guess_6 : guess_scalar false (s2b "0o17") = GUns 15.
Proof. vm_compute. reflexivity. Qed.
