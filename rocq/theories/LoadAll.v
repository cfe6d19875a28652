(** Model of LoadAllIterator (src/VariantParsing.cc) and of the YAML parser (src/YAMLParser.cc)
    over the events of libyaml. *)
From Verif Require Import Base CNum Float Value Convert Emit Builder Base64 GuessScalar Bundle ParserInput JSONParserC JSONDriver.
Open Scope N_scope.

(** ** The iterator *)

Section Iterator.
  (** The parser: Done(), and ParseVariant (src/VariantParsing.cc:208-214) with the parser it
      leaves behind.  What an exception leaves behind is not modelled. *)
  Context {P : Type} (done : P -> bool) (parse : P -> res (value * P)).

  (** src/VariantParsing.cc:296-306: the parser shared by the copies of an iterator, and the
      [Value] objects in the order in which they were made, each with its [next]. *)
  Record shared := Shared { sh_parser : P; sh_nodes : list (value * option nat) }.
  (** include/Variant/Variant.h:621-624: whether there is an [impl], and [value]. *)
  Record iter := Iter { it_impl : bool; it_at : option nat }.
  (** src/VariantParsing.cc:308-309: the iterator that marks the end. *)
  Definition it_end : iter := Iter false None.

  (** [value->next = ...] *)
  Fixpoint link (ns : list (value * option nat)) (k j : nat) : list (value * option nat) :=
    match ns, k with
    | [], _ => []
    | (v, _) :: t, O => (v, Some j) :: t
    | x :: t, S k' => x :: link t k' j
    end.

  (** src/VariantParsing.cc:322-338 Next; without [impl] a null pointer is dereferenced. *)
  Definition it_next (s : shared) (it : iter) : res (shared * iter) :=
    match it_at it with
    | None =>
        if it_impl it then
          if done (sh_parser s) then Ok (s, it)
          else do (v, p) <- parse (sh_parser s);
               Ok (Shared p (sh_nodes s ++ [(v, None)]), Iter true (Some (List.length (sh_nodes s))))
        else UB
    | Some k =>
        match nth_error (sh_nodes s) k with
        | None => UB
        | Some (_, Some j) => Ok (s, Iter (it_impl it) (Some j))
        | Some (_, None) =>
            if done (sh_parser s) then Ok (s, Iter (it_impl it) None)
            else do (v, p) <- parse (sh_parser s);
                 if (done p && match v with VNull => true | _ => false end)%bool
                 then Ok (Shared p (sh_nodes s), Iter (it_impl it) None)
                 else Ok (Shared p (link (sh_nodes s) k (List.length (sh_nodes s)) ++ [(v, None)]), Iter (it_impl it) (Some (List.length (sh_nodes s))))
        end
    end.
  (** src/VariantParsing.cc:311-315. *)
  Definition it_new (p : P) : res (shared * iter) := it_next (Shared p []) (Iter true None).
  (** src/VariantParsing.cc:317-320 Get, read. *)
  Definition it_get (s : shared) (it : iter) : res value :=
    match it_at it with
    | None => Throw OutOfRange
    | Some k => match nth_error (sh_nodes s) k with Some (v, _) => Ok v | None => UB end
    end.
  (** src/VariantParsing.cc:339-344 operator==. *)
  Definition it_eq (a b : iter) : bool :=
    match it_at a, it_at b with
    | Some i, Some j => Nat.eqb i j
    | None, None => true
    | _, _ => false
    end.

  (** A program that copies iterators (the copy is added to the pool), advances them
      (include/Variant/Variant.h:609-617), reads and compares them.  Operations on an
      iterator that is not there do nothing. *)
  Inductive iop := ICopy (i : nat) | INext (i : nat) | IGet (i : nat) | IEq (i j : nat).
  Inductive iobs := OGet (r : res value) | OEq (b : bool).
  Definition it_step (s : shared) (pool : list iter) (op : iop) : res (shared * list iter * list iobs) :=
    match op with
    | ICopy i => match nth_error pool i with Some it => Ok (s, pool ++ [it], []) | None => Ok (s, pool, []) end
    | INext i => match nth_error pool i with
                 | Some it => do (s, it) <- it_next s it; Ok (s, firstn i pool ++ it :: skipn (S i) pool, [])
                 | None => Ok (s, pool, [])
                 end
    | IGet i => match nth_error pool i with Some it => Ok (s, pool, [OGet (it_get s it)]) | None => Ok (s, pool, []) end
    | IEq i j => match nth_error pool i, nth_error pool j with
                 | Some a, Some b => Ok (s, pool, [OEq (it_eq a b)])
                 | _, _ => Ok (s, pool, [])
                 end
    end.
  Fixpoint it_run (s : shared) (pool : list iter) (ops : list iop) : res (list iobs) :=
    match ops with
    | [] => Ok []
    | op :: t => do (s, pool, o) <- it_step s pool op; do os <- it_run s pool t; Ok (o ++ os)
    end.
  (** [LoadAllIterator it(parser)], then the program on it and on an end iterator. *)
  Definition load_all (p : P) (ops : list iop) : res (list iobs) :=
    do (s, it) <- it_new p; it_run s [it; it_end] ops.
End Iterator.

(** ** YAML *)

(** The events of libyaml that are distinguished (src/YAMLParser.cc:104-160); anchors and tags
    may be absent.  [plain] stands for the styles of lines 72-74.  [stale] tells whether errno
    is ERANGE at that moment (src/GuessScalar.cc:84 reads it without clearing it first). *)
Inductive yev :=
| YStreamStart | YStreamEnd | YDocStart | YDocEnd
| YAlias (a : bytes)
| YScalar (anchor tag : option bytes) (plain stale : bool) (s : bytes)
| YSeqStart (anchor : option bytes) | YSeqEnd
| YMapStart (anchor : option bytes) | YMapEnd.

Definition yaml_binary : bytes := s2b "tag:yaml.org,2002:binary".
(** src/YAMLParser.cc:57-88 ParseScalar: the value handed on.  The buffer for binary data has
    Base64DecodeSize(length) bytes. *)
Definition yaml_scalar (tag : option bytes) (plain stale : bool) (s : bytes) : res value :=
  match tag with
  | Some t =>
      if beqb (c_str t) yaml_binary then
        do d <- base64_decode s;
        if base64_decode_size (wrap32 (llen s)) <? llen d then UB else Ok (VBlob [d])
      else Ok (VStr s)
  | None => Ok (if plain then guess_value (guess_scalar stale s) else VStr s)
  end.

(** The action stack with the anchors of its elements (src/VariantParsing.cc:144 [anchor];
    empty means none, 125), the anchors seen (59), the result (60) and [done] of the bottom
    element.  The elements are those of Builder.v. *)
Record ystate := YState { y_acts : list (action * option bytes); y_anchors : list (bytes * value); y_result : value; y_done : bool }.

(** src/VariantParsing.cc:49-51 Anchor: an anchor already there stays. *)
Definition add_anchor (a : option bytes) (v : value) (m : list (bytes * value)) : list (bytes * value) :=
  match a with
  | Some k => match mget k m with None => mset k v m | Some _ => m end
  | None => m
  end.
(** src/VariantParsing.cc:114-121, 159-168, 194-197 SetValue on the top element. *)
Definition y_set (v : value) (a : option bytes) (b : ystate) : res ystate :=
  match y_acts b with
  | (ABase true _, _) :: t => Ok (YState ((ABase true v, a) :: t) (add_anchor a v (y_anchors b)) (y_result b) (y_done b))
  | (ABase false _, _) :: t => Ok (YState t (add_anchor a v (y_anchors b)) v true)
  | (AMap true _ m, n) :: t => do k <- as_string v; Ok (YState ((AMap false k m, n) :: t) (y_anchors b) (y_result b) (y_done b))
  | (AMap false k m, n) :: t => Ok (YState ((AMap true k (mset k v m), n) :: t) (add_anchor a v (y_anchors b)) (y_result b) (y_done b))
  | (AList l, n) :: t => Ok (YState ((AList (l ++ [v]), n) :: t) (add_anchor a v (y_anchors b)) (y_result b) (y_done b))
  | [] => Throw RuntimeError
  end.
Definition named (a : option bytes) : option bytes := match a with Some [] => None | a => a end.
(** src/VariantParsing.cc:123-131 Finish. *)
Definition y_finish (b : ystate) : res ystate :=
  match y_acts b with
  | (ABase _ v, _) :: t => Ok (YState t (y_anchors b) v true)
  | (AMap _ _ m, n) :: t => y_set (VMap m) (named n) (YState t (y_anchors b) (y_result b) (y_done b))
  | (AList l, n) :: t => y_set (VList l) (named n) (YState t (y_anchors b) (y_result b) (y_done b))
  | [] => Throw RuntimeError
  end.
Definition y_push (a : action) (n : option bytes) (b : ystate) : ystate :=
  YState ((a, n) :: y_acts b) (y_anchors b) (y_result b) (y_done b).

(** src/YAMLParser.cc:90-167 Run over the events that are to come: those left, whether the end
    of the stream was met, and the state.  When libyaml has no event to give it reported an
    error.  The end of a map where a list is open, and the like, meet the throwing defaults of
    include/Variant/Parser.h:22-51. *)
Fixpoint y_run (es : list yev) (b : ystate) : res (list yev * bool * ystate) :=
  match y_acts b with
  | [] => Ok (es, false, b)
  | (top, n) :: t =>
      match es with
      | [] => Throw RuntimeError
      | e :: es' =>
          match e with
          | YStreamStart => y_run es' b
          | YStreamEnd => Ok (es', true, b)
          | YDocStart => y_run es' (match top with ABase _ v => YState ((ABase true v, n) :: t) (y_anchors b) (y_result b) (y_done b) | _ => b end)
          | YDocEnd => do b <- y_finish b; Ok (es', false, b)
          | YAlias a => match mget a (y_anchors b) with
                        | Some v => do b <- y_set v None b; y_run es' b
                        | None => Throw OutOfRange
                        end
          | YScalar a tag plain stale s => do v <- yaml_scalar tag plain stale s; do b <- y_set v a b; y_run es' b
          | YSeqStart a => y_run es' (y_push (AList []) a b)
          | YSeqEnd => match top with AList _ => do b <- y_finish b; y_run es' b | _ => Throw RuntimeError end
          | YMapStart a => y_run es' (y_push (AMap true [] []) a b)
          | YMapEnd => match top with AMap _ _ _ => do b <- y_finish b; y_run es' b | _ => Throw RuntimeError end
          end
      end
  end.

(** The parser between two calls of ParseVariant: the events to come and [eof].  The element
    that ParseVariant pushed is gone unless the end of the stream was met, and then nothing is
    delivered any more (src/YAMLParser.cc:92). *)
Record yparser := YParser { yp_events : list yev; yp_eof : bool }.
Definition y_new : ystate := YState [(ABase false VNull, None)] [] VNull false.
(** src/VariantParsing.cc:208-214 ParseVariant. *)
Fixpoint y_loop (fuel : nat) (p : yparser) (b : ystate) : res (value * yparser) :=
  match fuel with
  | O => Fuel
  | S f =>
      do (es, eof, b) <- (if yp_eof p then Ok (yp_events p, true, b) else y_run (yp_events p) b);
      if (negb eof && negb (y_done b))%bool then y_loop f (YParser es eof) b
      else Ok (y_result b, YParser es eof)
  end.
Definition y_parse (p : yparser) : res (value * yparser) := y_loop (2 + List.length (yp_events p)) p y_new.

(** ** JSON *)

(** The JSON parser between two calls: its state and the input; ParseVariant pushes a new
    element.  src/JSONParser.cc:206 Done. *)
Section JSON.
  Variable I : Type.
  Variable getptr : I -> res (option bytes * I).
  Variable release : I -> N -> res I.
  Definition j_start (i : I) : jd * I := (Jd jp_new S_START 0 (BState [] VNull false), i).
  Definition j_done (p : jd * I) : bool := match d_st (fst p) with S_DONE => true | _ => false end.
  Definition j_parse (fuel : nat) (p : jd * I) : res (value * (jd * I)) :=
    do (v, d, i) <- pv_loop I getptr release fuel (set_b (fst p) (BState (ABase false VNull :: b_acts (d_b (fst p))) VNull false)) (snd p);
    Ok (v, (d, i)).
End JSON.
