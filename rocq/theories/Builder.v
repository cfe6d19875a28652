(** Model of the Variant-building parser actions of src/VariantParsing.cc. *)
From Verif Require Import Base Float Value Convert.
Open Scope N_scope.

(** One element of the action stack: VariantBaseParserActions (src/VariantParsing.cc:63-144,
    members seen_begin_document and result), VariantMapParserActions (146-172: expect_key,
    key, result) and VariantListParserActions (181-199: result).  Anchors exist only in
    YAML and are not modelled; the base of an element is the element below it. *)
Inductive action :=
| ABase (seen : bool) (result : value)
| AMap (expect_key : bool) (key : bytes) (m : list (bytes * value))
| AList (l : list value).

(** The action stack of the parser, top first; ParserState::result (src/VariantParsing.cc:60);
    and the flag [done] of the bottom element. *)
Record bstate := BState { b_acts : list action; b_result : value; b_done : bool }.

(** The calls a parser makes on the top action (include/Variant/Parser.h:22-51),
    without anchors and tags. *)
Inductive bev :=
| BBeginDoc | BEndDoc | BBeginMap | BEndMap | BBeginList | BEndList
| BScalar (v : value).

(** src/VariantParsing.cc:114-121 (base), 159-168 (map), 194-197 (list) SetValue on the
    element at the top of [acts].  The base element finishes at once when no document was
    begun: it stores the result and is popped. *)
Definition set_value (v : value) (b : bstate) : res bstate :=
  match b_acts b with
  | ABase true _ :: t => Ok (BState (ABase true v :: t) (b_result b) (b_done b))
  | ABase false _ :: t => Ok (BState t v true)
  | AMap true _ m :: t => do k <- as_string v; Ok (BState (AMap false k m :: t) (b_result b) (b_done b))
  | AMap false k m :: t => Ok (BState (AMap true k (mset k v m) :: t) (b_result b) (b_done b))
  | AList l :: t => Ok (BState (AList (l ++ [v]) :: t) (b_result b) (b_done b))
  | [] => Throw RuntimeError
  end.

(** src/VariantParsing.cc:123-131 Finish of the top element: its result goes to its base
    (or to the parser state) and it is popped. *)
Definition finish (b : bstate) : res bstate :=
  match b_acts b with
  | ABase _ v :: t => Ok (BState t v true)
  | AMap _ _ m :: t => set_value (VMap m) (BState t (b_result b) (b_done b))
  | AList l :: t => set_value (VList l) (BState t (b_result b) (b_done b))
  | [] => Throw RuntimeError
  end.

(** TopAction()->...: include/Variant/Parser.h:92-96 (empty stack), 22-51 (the defaults,
    which throw), and the overriding members of src/VariantParsing.cc:69-112, 154-157,
    174-179, 189-192, 201-206. *)
Definition build (b : bstate) (e : bev) : res bstate :=
  match b_acts b with
  | [] => Throw RuntimeError
  | top :: t =>
    match e with
    | BBeginDoc =>
        Ok (match top with ABase _ v => BState (ABase true v :: t) (b_result b) (b_done b) | _ => b end)
    | BEndDoc => finish b
    | BBeginMap => Ok (BState (AMap true [] [] :: b_acts b) (b_result b) (b_done b))
    | BBeginList => Ok (BState (AList [] :: b_acts b) (b_result b) (b_done b))
    | BEndMap => match top with AMap _ _ _ => finish b | _ => Throw RuntimeError end
    | BEndList => match top with AList _ => finish b | _ => Throw RuntimeError end
    | BScalar v => set_value v b
    end
  end.

Fixpoint builds (b : bstate) (es : list bev) : res bstate :=
  match es with [] => Ok b | e :: es' => do b1 <- build b e; builds b1 es' end.

(** src/VariantParsing.cc:208-212 ParseVariant: the base element pushed on an empty stack. *)
Definition b_new : bstate := BState [ABase false VNull] VNull false.
