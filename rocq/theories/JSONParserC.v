(** Model of lib/json/JSON_parser.c, the character-driven JSON parser, as configured
    by src/JSONParser.cc:124-132 (unbounded depth, comments allowed, callback set). *)
From Verif Require Import Base CNum Float FloatText ParserInput.
Open Scope N_scope.

(** lib/json/JSON_parser.c:119-153 enum classes. *)
Inductive jclass : Set :=
| C_SPACE | C_WHITE | C_LCURB | C_RCURB | C_LSQRB | C_RSQRB | C_COLON | C_COMMA | C_QUOTE | C_BACKS
| C_SLASH | C_PLUS | C_MINUS | C_POINT | C_ZERO | C_DIGIT | C_LOW_A | C_LOW_B | C_LOW_C | C_LOW_D |
C_LOW_E | C_LOW_F | C_LOW_L | C_LOW_N | C_LOW_R | C_LOW_S | C_LOW_T | C_LOW_U | C_ABCDF | C_E |
C_ETC | C_STAR.

(** lib/json/JSON_parser.c:119-153, the position in the enumeration. *)
Definition class_idx (c : jclass) : nat :=
  match c with
  | C_SPACE => 0 | C_WHITE => 1 | C_LCURB => 2 | C_RCURB => 3
  | C_LSQRB => 4 | C_RSQRB => 5 | C_COLON => 6 | C_COMMA => 7
  | C_QUOTE => 8 | C_BACKS => 9 | C_SLASH => 10 | C_PLUS => 11
  | C_MINUS => 12 | C_POINT => 13 | C_ZERO => 14 | C_DIGIT => 15
  | C_LOW_A => 16 | C_LOW_B => 17 | C_LOW_C => 18 | C_LOW_D => 19
  | C_LOW_E => 20 | C_LOW_F => 21 | C_LOW_L => 22 | C_LOW_N => 23
  | C_LOW_R => 24 | C_LOW_S => 25 | C_LOW_T => 26 | C_LOW_U => 27
  | C_ABCDF => 28 | C_E => 29 | C_ETC => 30 | C_STAR => 31
  end.


(** lib/json/JSON_parser.c:155-180 ascii_class; [None] is __. *)
Definition ascii_class : list (option jclass) :=
  let __ := None in
  [__; __; __; __; __; __; __; __;
   __; Some C_WHITE; Some C_WHITE; __; __; Some C_WHITE; __; __;
   __; __; __; __; __; __; __; __;
   __; __; __; __; __; __; __; __;
   Some C_SPACE; Some C_ETC; Some C_QUOTE; Some C_ETC; Some C_ETC; Some C_ETC; Some C_ETC; Some C_ETC;
   Some C_ETC; Some C_ETC; Some C_STAR; Some C_PLUS; Some C_COMMA; Some C_MINUS; Some C_POINT; Some C_SLASH;
   Some C_ZERO; Some C_DIGIT; Some C_DIGIT; Some C_DIGIT; Some C_DIGIT; Some C_DIGIT; Some C_DIGIT; Some C_DIGIT;
   Some C_DIGIT; Some C_DIGIT; Some C_COLON; Some C_ETC; Some C_ETC; Some C_ETC; Some C_ETC; Some C_ETC;
   Some C_ETC; Some C_ABCDF; Some C_ABCDF; Some C_ABCDF; Some C_ABCDF; Some C_E; Some C_ABCDF; Some C_ETC;
   Some C_ETC; Some C_ETC; Some C_ETC; Some C_ETC; Some C_ETC; Some C_ETC; Some C_ETC; Some C_ETC;
   Some C_ETC; Some C_ETC; Some C_ETC; Some C_ETC; Some C_ETC; Some C_ETC; Some C_ETC; Some C_ETC;
   Some C_ETC; Some C_ETC; Some C_ETC; Some C_LSQRB; Some C_BACKS; Some C_RSQRB; Some C_ETC; Some C_ETC;
   Some C_ETC; Some C_LOW_A; Some C_LOW_B; Some C_LOW_C; Some C_LOW_D; Some C_LOW_E; Some C_LOW_F; Some C_ETC;
   Some C_ETC; Some C_ETC; Some C_ETC; Some C_ETC; Some C_LOW_L; Some C_ETC; Some C_LOW_N; Some C_ETC;
   Some C_ETC; Some C_ETC; Some C_LOW_R; Some C_LOW_S; Some C_LOW_T; Some C_LOW_U; Some C_ETC; Some C_ETC;
   Some C_ETC; Some C_ETC; Some C_ETC; Some C_LCURB; Some C_ETC; Some C_RCURB; Some C_ETC; Some C_ETC].

(** lib/json/JSON_parser.c:186-224 enum states. *)
Inductive jstate : Set :=
| SGO | SOK | SOB | SKE | SCO | SVA | SAR | SST | SES | SU1 | SU2 | SU3 | SU4 | SMI | SZE | SIT |
SFR | SE1 | SE2 | SE3 | ST1 | ST2 | ST3 | SF1 | SF2 | SF3 | SF4 | SN1 | SN2 | SN3 | SC1 | SC2 | SC3
| SFX | SD1 | SD2.

(** lib/json/JSON_parser.c:226-241 enum actions (prefix A), the actions -2 ... -9
    (prefix M), a new state, or __ (TErr). *)
Inductive jtr : Set :=
| To (q : jstate) | TErr
| ACB | ACE | AFA | ATR | ANU | ADE | ADF | ASB | AMX | AZX | AIX | AEX | AUC
| M2 | M3 | M4 | M5 | M6 | M7 | M8 | M9.

(** lib/json/JSON_parser.c:244-289 state_transition_table (generated from the source text). *)
Definition jrow (q : jstate) : list jtr :=
  let __ := TErr in
  match q with
  | SGO => [To SGO;To SGO;M6;__;M5;__;__;__;__;__;ACB;__;__;__;__;__;__;__;__;__;__;__;__;__;__;__;__;__;__;__;__;__]
  | SOK => [To SOK;To SOK;__;M8;__;M7;__;M3;__;__;ACB;__;__;__;__;__;__;__;__;__;__;__;__;__;__;__;__;__;__;__;__;__]
  | SOB => [To SOB;To SOB;__;M9;__;__;__;__;ASB;__;ACB;__;__;__;__;__;__;__;__;__;__;__;__;__;__;__;__;__;__;__;__;__]
  | SKE => [To SKE;To SKE;__;__;__;__;__;__;ASB;__;ACB;__;__;__;__;__;__;__;__;__;__;__;__;__;__;__;__;__;__;__;__;__]
  | SCO => [To SCO;To SCO;__;__;__;__;M2;__;__;__;ACB;__;__;__;__;__;__;__;__;__;__;__;__;__;__;__;__;__;__;__;__;__]
  | SVA => [To SVA;To SVA;M6;__;M5;__;__;__;ASB;__;ACB;__;AMX;__;AZX;AIX;__;__;__;__;__;AFA;__;ANU;__;__;ATR;__;__;__;__;__]
  | SAR => [To SAR;To SAR;M6;__;M5;M7;__;__;ASB;__;ACB;__;AMX;__;AZX;AIX;__;__;__;__;__;AFA;__;ANU;__;__;ATR;__;__;__;__;__]
  | SST => [To SST;__;To SST;To SST;To SST;To SST;To SST;To SST;M4;AEX;To SST;To SST;To SST;To SST;To SST;To SST;To SST;To SST;To SST;To SST;To SST;To SST;To SST;To SST;To SST;To SST;To SST;To SST;To SST;To SST;To SST;To SST]
  | SES => [__;__;__;__;__;__;__;__;To SST;To SST;To SST;__;__;__;__;__;__;To SST;__;__;__;To SST;__;To SST;To SST;__;To SST;To SU1;__;__;__;__]
  | SU1 => [__;__;__;__;__;__;__;__;__;__;__;__;__;__;To SU2;To SU2;To SU2;To SU2;To SU2;To SU2;To SU2;To SU2;__;__;__;__;__;__;To SU2;To SU2;__;__]
  | SU2 => [__;__;__;__;__;__;__;__;__;__;__;__;__;__;To SU3;To SU3;To SU3;To SU3;To SU3;To SU3;To SU3;To SU3;__;__;__;__;__;__;To SU3;To SU3;__;__]
  | SU3 => [__;__;__;__;__;__;__;__;__;__;__;__;__;__;To SU4;To SU4;To SU4;To SU4;To SU4;To SU4;To SU4;To SU4;__;__;__;__;__;__;To SU4;To SU4;__;__]
  | SU4 => [__;__;__;__;__;__;__;__;__;__;__;__;__;__;AUC;AUC;AUC;AUC;AUC;AUC;AUC;AUC;__;__;__;__;__;__;AUC;AUC;__;__]
  | SMI => [__;__;__;__;__;__;__;__;__;__;__;__;__;__;To SZE;To SIT;__;__;__;__;__;__;__;__;__;__;__;__;__;__;__;__]
  | SZE => [To SOK;To SOK;__;M8;__;M7;__;M3;__;__;ACB;__;__;ADF;__;__;__;__;__;__;__;__;__;__;__;__;__;__;__;__;__;__]
  | SIT => [To SOK;To SOK;__;M8;__;M7;__;M3;__;__;ACB;__;__;ADF;To SIT;To SIT;__;__;__;__;ADE;__;__;__;__;__;__;__;__;ADE;__;__]
  | SFR => [To SOK;To SOK;__;M8;__;M7;__;M3;__;__;ACB;__;__;__;To SFR;To SFR;__;__;__;__;To SE1;__;__;__;__;__;__;__;__;To SE1;__;__]
  | SE1 => [__;__;__;__;__;__;__;__;__;__;__;To SE2;To SE2;__;To SE3;To SE3;__;__;__;__;__;__;__;__;__;__;__;__;__;__;__;__]
  | SE2 => [__;__;__;__;__;__;__;__;__;__;__;__;__;__;To SE3;To SE3;__;__;__;__;__;__;__;__;__;__;__;__;__;__;__;__]
  | SE3 => [To SOK;To SOK;__;M8;__;M7;__;M3;__;__;__;__;__;__;To SE3;To SE3;__;__;__;__;__;__;__;__;__;__;__;__;__;__;__;__]
  | ST1 => [__;__;__;__;__;__;__;__;__;__;__;__;__;__;__;__;__;__;__;__;__;__;__;__;To ST2;__;__;__;__;__;__;__]
  | ST2 => [__;__;__;__;__;__;__;__;__;__;__;__;__;__;__;__;__;__;__;__;__;__;__;__;__;__;__;To ST3;__;__;__;__]
  | ST3 => [__;__;__;__;__;__;__;__;__;__;ACB;__;__;__;__;__;__;__;__;__;To SOK;__;__;__;__;__;__;__;__;__;__;__]
  | SF1 => [__;__;__;__;__;__;__;__;__;__;__;__;__;__;__;__;To SF2;__;__;__;__;__;__;__;__;__;__;__;__;__;__;__]
  | SF2 => [__;__;__;__;__;__;__;__;__;__;__;__;__;__;__;__;__;__;__;__;__;__;To SF3;__;__;__;__;__;__;__;__;__]
  | SF3 => [__;__;__;__;__;__;__;__;__;__;__;__;__;__;__;__;__;__;__;__;__;__;__;__;__;To SF4;__;__;__;__;__;__]
  | SF4 => [__;__;__;__;__;__;__;__;__;__;ACB;__;__;__;__;__;__;__;__;__;To SOK;__;__;__;__;__;__;__;__;__;__;__]
  | SN1 => [__;__;__;__;__;__;__;__;__;__;__;__;__;__;__;__;__;__;__;__;__;__;__;__;__;__;__;To SN2;__;__;__;__]
  | SN2 => [__;__;__;__;__;__;__;__;__;__;__;__;__;__;__;__;__;__;__;__;__;__;To SN3;__;__;__;__;__;__;__;__;__]
  | SN3 => [__;__;__;__;__;__;__;__;__;__;ACB;__;__;__;__;__;__;__;__;__;__;__;To SOK;__;__;__;__;__;__;__;__;__]
  | SC1 => [__;__;__;__;__;__;__;__;__;__;__;__;__;__;__;__;__;__;__;__;__;__;__;__;__;__;__;__;__;__;__;To SC2]
  | SC2 => [To SC2;To SC2;To SC2;To SC2;To SC2;To SC2;To SC2;To SC2;To SC2;To SC2;To SC2;To SC2;To SC2;To SC2;To SC2;To SC2;To SC2;To SC2;To SC2;To SC2;To SC2;To SC2;To SC2;To SC2;To SC2;To SC2;To SC2;To SC2;To SC2;To SC2;To SC2;To SC3]
  | SC3 => [To SC2;To SC2;To SC2;To SC2;To SC2;To SC2;To SC2;To SC2;To SC2;To SC2;ACE;To SC2;To SC2;To SC2;To SC2;To SC2;To SC2;To SC2;To SC2;To SC2;To SC2;To SC2;To SC2;To SC2;To SC2;To SC2;To SC2;To SC2;To SC2;To SC2;To SC2;To SC3]
  | SFX => [To SOK;To SOK;__;M8;__;M7;__;M3;__;__;__;__;__;__;To SFR;To SFR;__;__;__;__;To SE1;__;__;__;__;__;__;__;__;To SE1;__;__]
  | SD1 => [__;__;__;__;__;__;__;__;__;To SD2;__;__;__;__;__;__;__;__;__;__;__;__;__;__;__;__;__;__;__;__;__;__]
  | SD2 => [__;__;__;__;__;__;__;__;__;__;__;__;__;__;__;__;__;__;__;__;__;__;__;__;__;__;__;To SU1;__;__;__;__]
  end.

Definition trans (q : jstate) (c : jclass) : jtr := nth (class_idx c) (jrow q) TErr.

(** lib/json/JSON_parser.c:295-300 enum modes. *)
Inductive jmode : Set := MArray | MDone | MKey | MObject.

(** lib/json/JSON_parser.h:44-59 the values [type] takes during parsing. *)
Inductive jtype : Set := TNone | TInteger | TUnsigned | TFloat | TNull | TTrue | TFalse | TString.

(** The calls of the callback with their arguments. *)
Inductive jev :=
| JArrayBegin | JArrayEnd | JObjectBegin | JObjectEnd
| JInteger (z : Z) | JUnsigned (n : N) | JFloat (d : spec_float)
| JNull | JTrue | JFalse | JKey (s : bytes) | JString (s : bytes).

(** lib/json/JSON_parser.c:93-109 JSON_parser_struct.  [jp_buf] is the parse buffer
    up to parse_buffer_count, last character first; [jp_stack] the modes, top first.
    The NUL kept after the last character is not stored. *)
Record jp := Jp {
  jp_state : jstate; jp_before : jstate; jp_type : jtype;
  jp_escaped : bool; jp_comment : bool; jp_high : N;
  jp_stack : list jmode; jp_stack_cap : N;
  jp_buf : bytes; jp_cap : N }.

Definition set_state (s : jp) q := Jp q (jp_before s) (jp_type s) (jp_escaped s) (jp_comment s) (jp_high s) (jp_stack s) (jp_stack_cap s) (jp_buf s) (jp_cap s).
Definition set_before (s : jp) q := Jp (jp_state s) q (jp_type s) (jp_escaped s) (jp_comment s) (jp_high s) (jp_stack s) (jp_stack_cap s) (jp_buf s) (jp_cap s).
Definition set_type (s : jp) t := Jp (jp_state s) (jp_before s) t (jp_escaped s) (jp_comment s) (jp_high s) (jp_stack s) (jp_stack_cap s) (jp_buf s) (jp_cap s).
Definition set_escaped (s : jp) e := Jp (jp_state s) (jp_before s) (jp_type s) e (jp_comment s) (jp_high s) (jp_stack s) (jp_stack_cap s) (jp_buf s) (jp_cap s).
Definition set_comment (s : jp) c := Jp (jp_state s) (jp_before s) (jp_type s) (jp_escaped s) c (jp_high s) (jp_stack s) (jp_stack_cap s) (jp_buf s) (jp_cap s).
Definition set_high (s : jp) h := Jp (jp_state s) (jp_before s) (jp_type s) (jp_escaped s) (jp_comment s) h (jp_stack s) (jp_stack_cap s) (jp_buf s) (jp_cap s).
Definition set_stack (s : jp) k c := Jp (jp_state s) (jp_before s) (jp_type s) (jp_escaped s) (jp_comment s) (jp_high s) k c (jp_buf s) (jp_cap s).
Definition set_buf (s : jp) b c := Jp (jp_state s) (jp_before s) (jp_type s) (jp_escaped s) (jp_comment s) (jp_high s) (jp_stack s) (jp_stack_cap s) b c.

(** lib/json/JSON_parser.c:302-327 push, unbounded depth: the stack doubles when full. *)
Definition jpush (s : jp) (m : jmode) : res jp :=
  let top := llen (jp_stack s) in
  let cap := if jp_stack_cap s <=? top then jp_stack_cap s * 2 else jp_stack_cap s in
  if top <? cap then Ok (set_stack s (m :: jp_stack s) cap) else UB.

(** lib/json/JSON_parser.c:332-344 pop; [None] is false. *)
Definition jmode_eqb (a b : jmode) : bool :=
  match a, b with MArray, MArray | MDone, MDone | MKey, MKey | MObject, MObject => true | _, _ => false end.
Definition jpop (s : jp) (m : jmode) : option jp :=
  match jp_stack s with
  | [] => None
  | x :: t => if jmode_eqb x m then Some (set_stack s t (jp_stack_cap s)) else None
  end.

(** lib/json/JSON_parser.c:347-351 parse_buffer_clear. *)
Definition buf_clear (s : jp) : jp := set_buf s [] (jp_cap s).

(** lib/json/JSON_parser.c:353-358 parse_buffer_pop_back_char; the assertion is enabled. *)
Definition buf_pop (s : jp) : res jp :=
  match jp_buf s with [] => Abort | _ :: t => Ok (set_buf s t (jp_cap s)) end.

(** lib/json/JSON_parser.c:461-466 parse_buffer_push_back_char, with 448-459
    grow_parse_buffer; the character and the NUL after it must be inside. *)
Definition buf_push (s : jp) (c : ascii) : res jp :=
  let count := llen (jp_buf s) in
  let cap := if jp_cap s <=? count + 1 then jp_cap s * 2 else jp_cap s in
  if count + 1 <? cap then Ok (set_buf s (c :: jp_buf s) cap) else UB.

(** sscanf "%lld" and "%llu": [None] when nothing is converted.  ISO C leaves
    out-of-range input undefined; glibc saturates, and that is modelled. *)
Definition sscanf_lld (s : bytes) : option Z :=
  let '(neg, t) := take_sign (skip_space s) in
  let '(ds, _) := span is_digit t in
  match ds with
  | [] => None
  | _ => let v := Z.of_N (dec_value ds) in
         Some (if neg then Z.max (- 2^63) (- v) else Z.min (2^63 - 1) v)
  end.
Definition sscanf_llu (s : bytes) : option N :=
  let '(neg, t) := take_sign (skip_space s) in
  let '(ds, _) := span is_digit t in
  match ds with
  | [] => None
  | _ => let v := dec_value ds in
         Some (if 2^64 <=? v then 2^64 - 1 else if neg then wrap64 (2^64 - v) else v)
  end.

(** lib/json/JSON_parser.c:479-522 parse_parse_buffer.  The callback returns true or
    throws (src/JSONParser.cc:25-94).  When sscanf converts nothing the value read by
    the callback is indeterminate. *)
Definition parse_buffer (s : jp) : list jev * res jp :=
  let t := rev (jp_buf s) in
  match jp_type s with
  | TNone => ([], Ok (buf_clear s))
  | TFloat => ([JFloat (strtod t)], Ok (buf_clear s))
  | TInteger => match sscanf_lld t with Some z => ([JInteger z], Ok (buf_clear s)) | None => ([], UB) end
  | TUnsigned => match sscanf_llu t with Some n => ([JUnsigned n], Ok (buf_clear s)) | None => ([], UB) end
  | TString => ([JString t], Ok (buf_clear s))
  | TNull => ([JNull], Ok (buf_clear s))
  | TTrue => ([JTrue], Ok (buf_clear s))
  | TFalse => ([JFalse], Ok (buf_clear s))
  end.

(** lib/json/JSON_parser.c:542-553 the value of one hexadecimal digit. *)
Definition hex_of (c : ascii) : N :=
  let x := bval c in
  if 97 <=? x then x - 87 else if 65 <=? x then x - 55 else N.land x (N.lnot 48 32).

(** lib/json/JSON_parser.c:524-526 the surrogate macros. *)
Definition is_high (uc : N) : bool := N.land uc 64512 =? 55296.
Definition is_low (uc : N) : bool := N.land uc 64512 =? 56320.

(** lib/json/JSON_parser.c:587-591 the UTF-8 bytes with [trail] continuation bytes. *)
Definition utf8_put (uc : N) (trail : nat) : bytes :=
  let byte k := bchr (N.lor (N.land (N.shiftr uc (6 * k)) 63) 128) in
  match trail with
  | O => [bchr uc]
  | 1%nat => [bchr (N.lor (N.shiftr uc 6) 192); byte 0]
  | 2%nat => [bchr (N.lor (N.shiftr uc 12) 224); byte 1; byte 0]
  | _ => [bchr (N.lor (N.shiftr uc 18) 240); byte 2; byte 1; byte 0]
  end.

(** lib/json/JSON_parser.c:529-596 decode_unicode_char; the boolean is its result. *)
Definition decode_unicode (s : jp) : res (jp * bool) :=
  match jp_buf s with
  | h0 :: h1 :: h2 :: h3 :: _ :: _ :: rest =>
      if (16 <=? hex_of h3) || (16 <=? hex_of h2) || (16 <=? hex_of h1) || (16 <=? hex_of h0) then Abort else
      let uc := hex_of h3 * 4096 + hex_of h2 * 256 + hex_of h1 * 16 + hex_of h0 in
      let s := set_buf s rest (jp_cap s) in
      let put s uc trail :=
        let b := utf8_put uc trail in
        if jp_cap s <=? llen rest + llen b then UB
        else Ok (set_buf s (rev b ++ rest) (jp_cap s), true) in
      if negb (jp_high s =? 0) then
        if is_low uc then put (set_high s 0) (N.shiftl (N.land (jp_high s) 1023) 10 + N.land uc 1023 + 65536) 3%nat
        else Ok (s, false)
      else if uc <? 128 then put s uc 0%nat
      else if uc <? 2048 then put s uc 1%nat
      else if is_high uc then Ok (set_high s uc, true)
      else if is_low uc then Ok (s, false)
      else put s uc 2%nat
  | _ => Abort
  end.

(** lib/json/JSON_parser.c:598-637 add_escaped_char_to_parse_buffer; [None] is false. *)
Definition add_escaped (s : jp) (c : ascii) : res (jp * bool) :=
  do s <- buf_pop (set_escaped s false);
  let one c := do s <- buf_push s c; Ok (s, true) in
  if aeqb c "b" then one (bchr 8)
  else if aeqb c "f" then one (bchr 12)
  else if aeqb c "n" then one (bchr 10)
  else if aeqb c "r" then one (bchr 13)
  else if aeqb c "t" then one (bchr 9)
  else if aeqb c (bchr 34) then one (bchr 34)
  else if aeqb c "\" then one "\"%char
  else if aeqb c "/" then one "/"%char
  else if aeqb c "u" then do s <- buf_push s "\"; do s <- buf_push s "u"; Ok (s, true)
  else Ok (s, false).

(** lib/json/JSON_parser.c:639-649 add_char_to_parse_buffer. *)
Definition add_char (s : jp) (c : ascii) (k : jclass) : res (jp * bool) :=
  if jp_escaped s then add_escaped s c
  else if jp_comment s then Ok (s, true)
  else
    let white := match k with C_SPACE | C_WHITE => true | _ => false end in
    let none := match jp_type s with TNone => true | _ => false end in
    if none && white then Ok (s, true) else do s <- buf_push s c; Ok (s, true).

(** lib/json/JSON_parser.c:672-684 the class of a character; [None] is rejection. *)
Definition char_class (c : ascii) : option jclass :=
  if 128 <=? bval c then Some C_ETC
  else nth (N.to_nat (bval c)) ascii_class None.

(** What JSON_parser_char does: callbacks in order, then its outcome (the state and
    the value returned). *)
Definition jout := (list jev * res (jp * bool))%type.

Definition is_none (t : jtype) : bool := match t with TNone => true | _ => false end.
Definition is_str (t : jtype) : bool := match t with TString => true | _ => false end.
(** lib/json/JSON_parser.c:652-656 assert_type_isnt_string_null_or_bool. *)
Definition is_numty (t : jtype) : bool := match t with TNull | TTrue | TFalse | TString => false | _ => true end.

(** Sequencing with callbacks already made. *)
Definition after {A B} (r : list jev * res A) (k : A -> list jev * res B) : list jev * res B :=
  match snd r with
  | Ok a => let o := k a in (fst r ++ fst o, snd o)
  | Throw e => (fst r, Throw e) | UB => (fst r, UB) | Abort => (fst r, Abort) | Fuel => (fst r, Fuel)
  end.
Definition quiet {A} (r : res A) : list jev * res A := ([], r).
Definition jassert (b : bool) (s : jp) : list jev * res jp := if b then ([], Ok s) else ([], Abort).
Definition yes (s : jp) : jout := ([], Ok (s, true)).
Definition no (s : jp) : jout := ([], Ok (s, false)).

(** lib/json/JSON_parser.c:697-965 the actions, after the character was added. *)
Definition jact (s : jp) (a : jtr) : jout :=
  match a with
  | To q => yes (set_state s q)
  | AUC => after (quiet (decode_unicode s)) (fun '(s, ok) =>
             if ok then yes (set_state s (if jp_high s =? 0 then SST else SD1)) else no s)
  | AEX => yes (set_state (set_escaped s true) SES)
  | AMX => yes (set_state (set_type s TInteger) SMI)
  | AZX => yes (set_state (set_type s TUnsigned) SZE)
  | AIX => yes (set_state (set_type s TUnsigned) SIT)
  | ADE => after (jassert (is_numty (jp_type s)) s) (fun s => yes (set_state (set_type s TFloat) SE1))
  | ADF => after (jassert (is_numty (jp_type s)) s) (fun s =>
           after (jassert (match jp_buf s with c :: _ => aeqb c "." | [] => false end) s) (fun s =>
             yes (set_state (set_type s TFloat) SFX)))   (* decimal_point is "." *)
  | ASB => let s := buf_clear s in
           after (jassert (is_none (jp_type s)) s) (fun s => yes (set_state (set_type s TString) SST))
  | ANU => after (jassert (is_none (jp_type s)) s) (fun s => yes (set_state (set_type s TNull) SN1))
  | AFA => after (jassert (is_none (jp_type s)) s) (fun s => yes (set_state (set_type s TFalse) SF1))
  | ATR => after (jassert (is_none (jp_type s)) s) (fun s => yes (set_state (set_type s TTrue) ST1))
  | ACE => let s := set_comment s false in
           after (jassert (match jp_buf s with [] => true | _ => false end) s) (fun s =>
           after (jassert (is_none (jp_type s)) s) (fun s => yes (set_state s (jp_before s))))
  | ACB => after (quiet (buf_pop s)) (fun s =>
           after (parse_buffer s) (fun s =>
           after (jassert (negb (is_str (jp_type s))) s) (fun s =>
             match jp_stack s with
             | [] => quiet UB
             | m :: _ =>
                 let b := match m with
                          | MArray | MObject => match jp_state s with SVA => SVA | SAR => SAR | _ => SOK end
                          | _ => jp_state s
                          end in
                 yes (set_comment (set_state (set_type (set_before s b) TNone) SC1) true)
             end)))
  | M9 => let s := buf_clear s in
          after ([JObjectEnd], Ok s) (fun s =>
            match jpop s MKey with Some s => yes (set_state s SOK) | None => no s end)
  | M8 => after (quiet (buf_pop s)) (fun s =>
          after (parse_buffer s) (fun s =>
          after ([JObjectEnd], Ok s) (fun s =>
            match jpop s MObject with Some s => yes (set_state (set_type s TNone) SOK) | None => no s end)))
  | M7 => after (quiet (buf_pop s)) (fun s =>
          after (parse_buffer s) (fun s =>
          after ([JArrayEnd], Ok s) (fun s =>
            match jpop s MArray with Some s => yes (set_state (set_type s TNone) SOK) | None => no s end)))
  | M6 => after (quiet (buf_pop s)) (fun s =>
          after ([JObjectBegin], Ok s) (fun s =>
          after (quiet (jpush s MKey)) (fun s =>
          after (jassert (is_none (jp_type s)) s) (fun s => yes (set_state s SOB)))))
  | M5 => after (quiet (buf_pop s)) (fun s =>
          after ([JArrayBegin], Ok s) (fun s =>
          after (quiet (jpush s MArray)) (fun s =>
          after (jassert (is_none (jp_type s)) s) (fun s => yes (set_state s SAR)))))
  | M4 => after (quiet (buf_pop s)) (fun s =>
          match jp_stack s with
          | [] => quiet UB
          | MKey :: _ =>
              after (jassert (is_str (jp_type s)) s) (fun s =>
              after ([JKey (rev (jp_buf s))], Ok s) (fun s =>
                yes (buf_clear (set_state (set_type s TNone) SCO))))
          | MArray :: _ | MObject :: _ =>
              after (jassert (is_str (jp_type s)) s) (fun s =>
              after (parse_buffer s) (fun s => yes (set_state (set_type s TNone) SOK)))
          | MDone :: _ => no s
          end)
  | M3 => after (quiet (buf_pop s)) (fun s =>
          after (parse_buffer s) (fun s =>
          match jp_stack s with
          | [] => quiet UB
          | MObject :: _ =>
              match jpop s MObject with
              | Some s => after (quiet (jpush s MKey)) (fun s =>
                          after (jassert (negb (is_str (jp_type s))) s) (fun s => yes (set_state (set_type s TNone) SKE)))
              | None => no s
              end
          | MArray :: _ => after (jassert (negb (is_str (jp_type s))) s) (fun s => yes (set_state (set_type s TNone) SVA))
          | _ => no s
          end))
  | M2 => after (quiet (buf_pop s)) (fun s =>
          match jpop s MKey with
          | Some s => after (quiet (jpush s MObject)) (fun s =>
                      after (jassert (is_none (jp_type s)) s) (fun s => yes (set_state s SVA)))
          | None => no s
          end)
  | TErr => no s
  end.

(** lib/json/JSON_parser.c:659-967 JSON_parser_char, for an unsigned char. *)
Definition jchar (s : jp) (c : ascii) : jout :=
  match char_class c with
  | None => no s
  | Some k =>
      after (quiet (add_char s c k)) (fun '(s, ok) =>
        if ok then jact s (trans (jp_state s) k) else no s)
  end.

(** lib/json/JSON_parser.c:969-976 JSON_parser_done. *)
Definition jdone (s : jp) : bool * jp :=
  match jp_state s with
  | SOK => match jpop s MDone with Some s => (true, s) | None => (false, s) end
  | _ => (false, s)
  end.

(** lib/json/JSON_parser.c:374-446 new_JSON_parser with depth -1 (static stack of 128
    modes, static buffer of 3500 bytes). *)
Definition jp_new : jp := Jp SGO SGO TNone false false 0 [MDone] 128 [] 3500.
