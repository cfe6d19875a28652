(** Model of the YAML emitter (src/YAMLEmitter.cc), over the events that libyaml takes. *)
From Verif Require Import Base ParserInput CNum Float FloatText Value Emit Base64 LoadAll.
Open Scope N_scope.

(** The styles that are asked for (src/YAMLEmitter.h:64-71; the others only by functions that are not
    part of the emitter interface). *)
Inductive ystyle := StAny | StPlain.
(** The events that are given to yaml_emitter_emit (src/YAMLEmitter.cc:206-375, 397-408); anchors are never
    given, tags only to blobs.  The styles of lists and maps, and whether the marks of a document are
    implicit, do not change what is read back, and are left out. *)
Inductive yout :=
| OStreamStart | OStreamEnd | ODocStart | ODocEnd
| OScalar (tag : option bytes) (style : ystyle) (s : bytes)
| OSeqStart | OSeqEnd | OMapStart | OMapEnd.

(** src/YAMLEmitter.h:161-165: the events given so far, and in_document.  [closed] is left out: Close
    comes last. *)
Record yemit := YEmit { ye_out : list yout; ye_in : bool }.
(** src/YAMLEmitter.cc:190, 394-400: the constructor gives the start of the stream. *)
Definition ye_new : yemit := YEmit [OStreamStart] false.
Definition ye_give (o : yout) (st : yemit) : yemit := YEmit (ye_out st ++ [o]) (ye_in st).
(** src/YAMLEmitter.h:149-159 CheckInDocument and CheckOutDocument, with src/YAMLEmitter.cc:208-214, 223-229. *)
Definition ye_end_doc (st : yemit) : yemit := if ye_in st then YEmit (ye_out st ++ [ODocEnd]) false else st.
Definition ye_begin_doc (st : yemit) : yemit := if ye_in st then st else YEmit (ye_out st ++ [ODocStart]) true.

(** The text of a double (src/YAMLEmitter.cc:332-342). *)
Definition yaml_double (prec : N) (d : spec_float) : bytes :=
  if f_nan d then s2b ".nan"
  else if f_inf d then (match d with S754_infinity true => s2b "-" | _ => [] end) ++ s2b ".inf"
  else print_g (Z.of_N prec) d.

(** A scalar without a tag; [text_ok] is yaml_scalar_event_initialize's check of the encoding, which
    fails for what is not UTF-8 (src/YAMLEmitter.cc:294-318). *)
Definition ye_scalar (text_ok : bytes -> bool) (style : ystyle) (s : bytes) (st : yemit) : res yemit :=
  let st := ye_begin_doc st in
  if text_ok s then Ok (ye_give (OScalar None style s) st) else Throw RuntimeError.

(** One call of the emitter interface; the buffer for base64 has the size for lines of 72
    (src/Base64.h:16) (src/YAMLEmitter.cc:202-355). *)
Definition ye_call (text_ok : bytes -> bool) (prec : N) (e : eev) (st : yemit) : res yemit :=
  match e with
  | EvBeginDoc => Ok (ye_begin_doc (ye_end_doc st))                                     (* 202-215 *)
  | EvEndDoc => Ok (ye_end_doc (ye_begin_doc st))                                       (* 217-230 *)
  | EvBeginMap _ => Ok (ye_give OMapStart (ye_begin_doc st))                            (* 232-245 *)
  | EvEndMap => Ok (ye_give OMapEnd (ye_begin_doc st))                                  (* 247-255 *)
  | EvBeginList _ => Ok (ye_give OSeqStart (ye_begin_doc st))                           (* 257-270 *)
  | EvEndList => Ok (ye_give OSeqEnd (ye_begin_doc st))                                 (* 272-280 *)
  | EvNull => ye_scalar text_ok StPlain (s2b "null") st                                 (* 282-284 *)
  | EvTrue => ye_scalar text_ok StPlain (s2b "true") st                                 (* 286-288 *)
  | EvFalse => ye_scalar text_ok StPlain (s2b "false") st                               (* 290-292 *)
  | EvStr s => ye_scalar text_ok StAny s st                                             (* 305-318 *)
  | EvInt z => ye_scalar text_ok StPlain (dec_of_Z z) st                                (* 320-324 *)
  | EvUns n => ye_scalar text_ok StPlain (dec_of_N n) st                                (* 326-330 *)
  | EvFlt d => ye_scalar text_ok StPlain (yaml_double prec d) st                        (* 332-342 *)
  | EvBlob b =>                                                                         (* 344-355 *)
      let st := ye_begin_doc st in
      do (t, n) <- base64_encode b 0;
      if base64_encode_size (wrap32 (llen (List.concat b))) 72 <? llen t + 1 then UB
      else Ok (ye_give (OScalar (Some yaml_binary) StAny (take n t)) st)
  end.
Fixpoint ye_calls (text_ok : bytes -> bool) (prec : N) (es : list eev) (st : yemit) : res yemit :=
  match es with
  | [] => Ok st
  | e :: t => do st <- ye_call text_ok prec e st; ye_calls text_ok prec t st
  end.
(** src/YAMLEmitter.cc:364-378 Close. *)
Definition ye_close (st : yemit) : list yout := ye_out (ye_give OStreamEnd (ye_end_doc st)).
(** src/VariantEmitting.cc:68-110: calls, then Close. *)
Definition yaml_events (text_ok : bytes -> bool) (prec : N) (es : list eev) : res (list yout) :=
  do st <- ye_calls text_ok prec es ye_new; Ok (ye_close st).
(** std::numeric_limits<double>::digits10 + 2 (src/YAMLEmitter.cc:52). *)
Definition ye_default : N := 17.
