(** Model of the XML property lists (src/XMLPLISTEmitter.cc, src/XMLPLISTParser.cc), over the calls that
    libxml2's text writer takes and the nodes that its text reader reports. *)
From Verif Require Import Base ParserInput CNum Float FloatText Value Convert Emit Builder Base64 ParseBool GuessScalar LoadAll.
Open Scope N_scope.

(** src/XMLPLISTDefs.h:24-34. *)
Definition MAP_NAME := s2b "dict".
Definition STRING_NAME := s2b "string".
Definition TRUE_NAME := s2b "true".
Definition FALSE_NAME := s2b "false".
Definition INTEGER_NAME := s2b "integer".
Definition FLOAT_NAME := s2b "real".
Definition ROOT_NAME := s2b "plist".
Definition LIST_NAME := s2b "array".
Definition NULL_NAME := s2b "null".
Definition KEY_NAME := s2b "key".
Definition BLOB_NAME := s2b "data".

(** ** Writing *)

(** xmlTextWriterStartElement, xmlTextWriterWriteString, xmlTextWriterEndElement
    (src/XMLPLISTEmitter.h:91-111).  The declaration and the indentation are left out. *)
Inductive wcall := WStart (name : bytes) | WText (s : bytes) | WEnd.
(** src/XMLPLISTEmitter.h:39-44. *)
Inductive xstate := XNone | XKey | XValue | XList.
(** src/XMLPLISTEmitter.h:115-121: the calls made so far, and the states, top first. *)
Record xemit := XEmit { xe_out : list wcall; xe_state : list xstate }.
(** src/XMLPLISTEmitter.cc:43-70. *)
Definition xe_new : xemit := XEmit [] [XNone].

(** src/XMLPLISTEmitter.h:79-88 CheckMapKey; state.back() of an empty deque is undefined. *)
Definition check_map_key (complex : bool) (s : list xstate) : res (list xstate) :=
  match s with
  | [] => UB
  | XValue :: t => Ok (XKey :: t)
  | XKey :: t => if complex then Throw RuntimeError else Ok (XValue :: t)
  | s => Ok s
  end.
(** src/XMLPLISTEmitter.h:90-96 StartElement, 98-103 CloseElement (libxml2 refuses it when nothing is open,
    which is not modelled), 105-109 WriteText. *)
Definition xe_start (name : bytes) (complex : bool) (st : xemit) : res xemit :=
  do s <- check_map_key complex (xe_state st); Ok (XEmit (xe_out st ++ [WStart name]) s).
(** One call of the writer; state.push_back and pop_back (src/XMLPLISTEmitter.cc:92, 97, 102, 107); an element without content
    and one with a text (src/XMLPLISTEmitter.cc:110-151). *)
Definition xe_put (c : wcall) (st : xemit) : xemit := XEmit (xe_out st ++ [c]) (xe_state st).
Definition xe_push (s : xstate) (st : xemit) : xemit := XEmit (xe_out st) (s :: xe_state st).
Definition xe_pop (st : xemit) : res xemit :=
  match xe_state st with [] => UB | _ :: t => Ok (XEmit (xe_out st) t) end.
Definition xe_empty (name : bytes) (st : xemit) : res xemit :=
  do st <- xe_start name true st; Ok (xe_put WEnd st).
Definition xe_text (name : bytes) (complex : bool) (s : bytes) (st : xemit) : res xemit :=
  do st <- xe_start name complex st; Ok (xe_put WEnd (xe_put (WText s) st)).

(** One call of the emitter interface (src/XMLPLISTEmitter.cc:82-168).  The text of a double is that of an ostream with showpoint;
    the sign of a NaN is not kept in the model.  The text of a blob goes up to the NUL that Base64Encode puts behind it. *)
Definition xe_call (prec : N) (e : eev) (st : xemit) : res xemit :=
  match e with
  | EvBeginDoc => xe_start ROOT_NAME true st                                                   (* 82-84 *)
  | EvEndDoc => Ok (xe_put WEnd st)                                                            (* 86-88 *)
  | EvBeginMap _ => do st <- xe_start MAP_NAME true st; Ok (xe_push XKey st)                   (* 90-93 *)
  | EvEndMap => xe_pop (xe_put WEnd st)                                                        (* 95-98 *)
  | EvBeginList _ => do st <- xe_start LIST_NAME true st; Ok (xe_push XList st)                (* 100-103 *)
  | EvEndList => xe_pop (xe_put WEnd st)                                                       (* 105-108 *)
  | EvNull => xe_empty NULL_NAME st                                                            (* 110-113 *)
  | EvTrue => xe_empty TRUE_NAME st                                                            (* 115-118 *)
  | EvFalse => xe_empty FALSE_NAME st                                                          (* 120-123 *)
  | EvStr s => match xe_state st with                                                          (* 125-135 *)
               | [] => UB
               | XKey :: _ => xe_text KEY_NAME false (c_str s) st
               | _ => xe_text STRING_NAME true (c_str s) st
               end
  | EvInt z => xe_text INTEGER_NAME true (dec_of_Z z) st                                       (* 137-143 *)
  | EvUns n => xe_text INTEGER_NAME true (dec_of_N n) st                                       (* 145-151 *)
  | EvFlt d => xe_text FLOAT_NAME true (print_g (Z.of_N prec) d) st                            (* 153-159 *)
  | EvBlob b =>                                                                                (* 161-167 *)
      do (t, n) <- base64_encode b 72;
      if base64_encode_size (wrap32 (llen (List.concat b))) 72 <? llen t + 1 then UB
      else xe_text BLOB_NAME true (c_str t) st
  end.
Fixpoint xe_calls (prec : N) (es : list eev) (st : xemit) : res xemit :=
  match es with
  | [] => Ok st
  | e :: t => do st <- xe_call prec e st; xe_calls prec t st
  end.
(** src/VariantEmitting.cc:68-110: calls, then Close (src/XMLPLISTEmitter.cc:177-186), which ends what is open. *)
Definition xml_calls (prec : N) (es : list eev) : res (list wcall) :=
  do st <- xe_calls prec es xe_new; Ok (xe_out st).
(** std::numeric_limits<double>::digits10 + 2 (src/XMLPLISTEmitter.cc:45). *)
Definition xml_default : N := 17.

(** ** Reading *)

(** What xmlTextReaderRead reports (src/XMLPLISTParser.cc:88-123): the start of an element and whether it is of the form <a/>, the
    end of an element, a text with whether errno is ERANGE before, and all that the parser ignores: comments, white space between and also
    inside elements, and so on. *)
Inductive xev := XElem (name : bytes) (empty : bool) | XEnd (name : bytes) | XText (stale : bool) (s : bytes) | XOther.

(** src/XMLPLISTParser.h:34-50. *)
Inductive xnode := StartState | NullNode | RootNode | TrueNode | FalseNode | IntegerNode | FloatNode | StringNode | BlobNode
  | MapNode | EmptyMapNode | KeyNode | ListNode | EmptyListNode | EndState.
(** Comparison of states, generated by the compiler for an enum. *)
Definition xnode_eqb (a b : xnode) : bool :=
  match a, b with
  | StartState, StartState | NullNode, NullNode | RootNode, RootNode | TrueNode, TrueNode | FalseNode, FalseNode
  | IntegerNode, IntegerNode | FloatNode, FloatNode | StringNode, StringNode | BlobNode, BlobNode | MapNode, MapNode
  | EmptyMapNode, EmptyMapNode | KeyNode, KeyNode | ListNode, ListNode | EmptyListNode, EmptyListNode | EndState, EndState => true
  | _, _ => false
  end.

(** strcasecmp(a, b) == 0. *)
Definition casecmp (a b : bytes) : bool := beqb (List.map to_lower a) (List.map to_lower b).
(** src/XMLPLISTParser.cc:31-59 StringToNode. *)
Definition string_to_node (name : bytes) : xnode :=
  if casecmp name STRING_NAME then StringNode
  else if casecmp name TRUE_NAME then TrueNode
  else if casecmp name ROOT_NAME then RootNode
  else if casecmp name LIST_NAME then ListNode
  else if casecmp name FALSE_NAME then FalseNode
  else if casecmp name INTEGER_NAME then IntegerNode
  else if casecmp name FLOAT_NAME then FloatNode
  else if casecmp name NULL_NAME then NullNode
  else if casecmp name MAP_NAME then MapNode
  else if casecmp name KEY_NAME then KeyNode
  else if casecmp name BLOB_NAME then BlobNode
  else StringNode.

(** Sign and magnitude that the strto functions read with base 0: 0x is hexadecimal, 0 octal. *)
Definition strto0 (s : bytes) : bool * N :=
  let '(neg, s) := take_sign (skip_space s) in
  let value base isd s := fold_left (fun a c => base * a + xdigit_val c) (fst (span isd s)) 0 in
  (neg, match s with
        | c :: t =>
            if aeqb c "0" then
              match t with
              | x :: (h :: _) as r => if (aeqb (to_lower x) "x" && is_xdigit h)%bool then value 16 is_xdigit r else value 8 is_odigit s
              | _ => value 8 is_odigit s
              end
            else value 10 is_digit s
        | [] => 0
        end).
(** strtoll(s, 0, 0), with whether errno becomes ERANGE, and strtoull(s, 0, 0). *)
Definition strtoll0 (s : bytes) : Z * bool :=
  let '(neg, m) := strto0 s in let z := if neg then (- Z.of_N m)%Z else Z.of_N m in
  if (z <? - 2^63)%Z then ((- 2^63)%Z, true) else if (2^63 - 1 <? z)%Z then ((2^63 - 1)%Z, true) else (z, false).
Definition strtoull0 (s : bytes) : N :=
  let '(neg, m) := strto0 s in if 2^64 <=? m then 2^64 - 1 else if neg then wrap64 (2^64 - m) else m.
(** src/XMLPLISTParser.cc:230-243. *)
Definition xml_int (stale : bool) (s : bytes) : value :=
  let '(v, erange) := strtoll0 s in
  if ((v =? 2^63 - 1)%Z && (stale || erange))%bool then VUns (strtoull0 s) else VInt v.
(** strtod(s, 0) (src/XMLPLISTParser.cc:245-251); hexadecimal is not modelled. *)
Definition strtod_all (s : bytes) : spec_float :=
  let '(neg, t) := take_sign (skip_space s) in
  let w := List.map to_lower (firstn 3 t) in
  if beqb w (s2b "inf") then S754_infinity neg else if beqb w (s2b "nan") then S754_nan else strtod s.
(** src/XMLPLISTParser.cc:260-274. *)
Definition xml_blob (s : bytes) : res value :=
  do d <- base64_decode s;
  if base64_decode_size (wrap32 (llen s)) <? llen d then UB else Ok (VBlob [d]).

(** src/XMLPLISTParser.h:70-76: the stack of states, top first, and the flag [empty]; and the actions with their result.  [closed]
    is set by nothing that is modelled (Close, src/XMLPLISTParser.cc:337-342, is called by the destructor, by Reset, and when
    libxml2 gives up its input). *)
Record xpst := XPst { xp_stack : list xnode; xp_empty : bool; xp_b : bstate }.
(** statestack.push_back; one call of the action on top (src/XMLPLISTParser.cc:139-333). *)
Definition xp_push (n : xnode) (st : xpst) : xpst := XPst (n :: xp_stack st) (xp_empty st) (xp_b st).
Definition xp_call (e : bev) (st : xpst) : res xpst := do b <- build (xp_b st) e; Ok (XPst (xp_stack st) (xp_empty st) b).

(** src/XMLPLISTParser.cc:137-217 BeginElement. *)
Definition begin_element (n : xnode) (empty_node : bool) (st : xpst) : res (bool * xpst) :=
  let scalar v := do st <- xp_call (BScalar v) (if empty_node then st else xp_push n st); Ok (negb empty_node, st) in
  let text := if empty_node then Throw RuntimeError else Ok (true, XPst (n :: xp_stack st) true (xp_b st)) in
  match n with
  | NullNode => scalar VNull
  | TrueNode => scalar (VBool true)
  | FalseNode => scalar (VBool false)
  | RootNode => do st <- xp_call BBeginDoc (xp_push n st); Ok (negb empty_node, st)
  | IntegerNode | FloatNode | StringNode | BlobNode | KeyNode => text
  | MapNode => do st <- xp_call BBeginMap (xp_push (if empty_node then EmptyMapNode else n) st); Ok (false, st)
  | ListNode => do st <- xp_call BBeginList (xp_push (if empty_node then EmptyListNode else n) st); Ok (false, st)
  | _ => Throw RuntimeError
  end.
(** src/XMLPLISTParser.cc:219-288 ProcessText; it always goes on.  The allocation of memory succeeds. *)
Definition process_text (stale : bool) (s : bytes) (st : xpst) : res xpst :=
  let give v := xp_call (BScalar v) (XPst (xp_stack st) false (xp_b st)) in
  match xp_stack st with
  | (NullNode | RootNode | TrueNode | FalseNode | MapNode | ListNode) :: _ => Ok st
  | IntegerNode :: _ => give (xml_int stale s)
  | FloatNode :: _ => give (VFlt (ld_of_d (strtod_all s)))
  | (StringNode | KeyNode) :: _ => give (VStr s)
  | BlobNode :: _ => do v <- xml_blob s; give v
  | _ => Throw RuntimeError
  end.
(** src/XMLPLISTParser.cc:290-335 EndElement; it always leaves the inner loop. *)
Definition end_element (n : xnode) (st : xpst) : res xpst :=
  match xp_stack st with
  | [] => UB
  | m :: t =>
      if negb (xnode_eqb m n) then Throw RuntimeError
      else let st := XPst t (xp_empty st) (xp_b st) in
      match n with
      | NullNode | TrueNode | FalseNode => Ok st
      | IntegerNode | FloatNode | BlobNode => if xp_empty st then Throw RuntimeError else Ok st
      | StringNode | KeyNode => if xp_empty st then xp_call (BScalar (VStr [])) st else Ok st
      | RootNode => xp_call BEndDoc st
      | MapNode => xp_call BEndMap st
      | ListNode => xp_call BEndList st
      | _ => Throw RuntimeError
      end
  end.
(** src/XMLPLISTParser.cc:86-123, one node: whether the inner loop goes on.  TopAction throws when there is no action
    (include/Variant/Parser.h:93-97). *)
Definition xp_event (e : xev) (st : xpst) : res (bool * xpst) :=
  match e with
  | XOther => Ok (true, st)
  | _ => match b_acts (xp_b st) with
         | [] => Throw RuntimeError
         | _ :: _ =>
             match e with
             | XElem name empty => begin_element (string_to_node name) empty st
             | XEnd name => do st <- end_element (string_to_node name) st; Ok (false, st)
             | XText stale s => do st <- process_text stale s st; Ok (true, st)
             | XOther => Ok (true, st)
             end
         end
  end.

(** src/XMLPLISTParser.cc:61-85, the head of the outer loop: return, or read on. *)
Definition xp_head (st : xpst) : res (option N * xpst) :=
  match b_acts (xp_b st) with
  | [] => Ok (Some 0, st)
  | _ :: _ =>
      match xp_stack st with
      | [] => UB
      | StartState :: t => Ok (None, XPst (EndState :: t) (xp_empty st) (xp_b st))
      | EndState :: _ => Ok (Some 1, st)
      | EmptyMapNode :: t => do st <- xp_call BEndMap (XPst t (xp_empty st) (xp_b st)); Ok (Some 0, st)
      | EmptyListNode :: t => do st <- xp_call BEndList (XPst t (xp_empty st) (xp_b st)); Ok (Some 0, st)
      | (RootNode | MapNode | ListNode) :: _ => Ok (None, st)
      | _ => Throw RuntimeError
      end
  end.
(** src/XMLPLISTParser.cc:61-135 Run, at the head of the outer loop or inside the inner one.  [bad]: libxml2 reports an
    error after these nodes, not the end of the input. *)
Fixpoint xp_run (bad : bool) (evs : list xev) (head : bool) (st : xpst) : res (N * list xev * xpst) :=
  do (ret, st) <- (if head then xp_head st else Ok (None, st));
  match ret with
  | Some r => Ok (r, evs, st)
  | None =>
      match evs with
      | [] => if bad then Throw RuntimeError
              else match xp_stack st with EndState :: _ => Ok (1, [], st) | [] => UB | _ => Throw RuntimeError end
      | e :: t => do (loop, st) <- xp_event e st; xp_run bad t (negb loop) st
      end
  end.
(** src/VariantParsing.cc:212, the loop of ParseVariant. *)
Fixpoint xp_loop (bad : bool) (fuel : nat) (evs : list xev) (st : xpst) : res (list xev * xpst) :=
  match fuel with
  | O => Fuel
  | S fuel =>
      do (ret, evs, st) <- xp_run bad evs true st;
      if ((ret =? 0) && negb (b_done (xp_b st)))%bool then xp_loop bad fuel evs st else Ok (evs, st)
  end.
(** The parser between two documents; src/VariantParsing.cc:208-214 ParseVariant.  Actions left over by a call that did not finish are
    never reached again (the state is EndState then) and are left out. *)
(* [xr_done] is Done (src/XMLPLISTParser.cc:386-388). *)
Record xparser := XParser { xr_events : list xev; xr_bad : bool; xr_stack : list xnode; xr_empty : bool }.
Definition xr_new (evs : list xev) (bad : bool) : xparser := XParser evs bad [StartState] false.
Definition xr_done (p : xparser) : bool := false.
Definition xr_parse (p : xparser) : res (value * xparser) :=
  do (evs, st) <- xp_loop (xr_bad p) (S (S (List.length (xr_events p)))) (xr_events p) (XPst (xr_stack p) (xr_empty p) b_new);
  Ok (b_result (xp_b st), XParser evs (xr_bad p) (xp_stack st) (xp_empty st)).
