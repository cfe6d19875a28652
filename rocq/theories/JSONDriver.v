(** Model of src/JSONParser.cc and of ParseVariant / Deserialize (src/VariantParsing.cc). *)
From Verif Require Import Base Float Value Convert Builder Base64 ParserInput JSONParserC.
Open Scope N_scope.

(** src/JSONParser.h Status_t. *)
Inductive jstatus := S_START | S_BEGIN | S_OK | S_ERROR | S_END | S_DONE.

(** The members of JSONParserImpl (src/JSONParser.h); line, column and charcount serve
    only the error text and are not modelled. *)
Record jd := Jd { d_p : jp; d_st : jstatus; d_depth : Z; d_b : bstate }.

Definition set_b (d : jd) (b : bstate) : jd := Jd (d_p d) (d_st d) (d_depth d) b.
Definition set_st (d : jd) (s : jstatus) : jd := Jd (d_p d) s (d_depth d) (d_b d).
Definition set_p (d : jd) (p : jp) : jd := Jd p (d_st d) (d_depth d) (d_b d).
Definition add_depth (d : jd) (k : Z) : jd := Jd (d_p d) (d_st d) (d_depth d + k) (d_b d).

(** src/BlobMagic.h:14-16. *)
Definition blob_tag : bytes := bchr 0 :: s2b "BLOB".

(** src/JSONParser.cc:69-84 a string value; a tagged one is decoded into a buffer of
    Base64DecodeSize(length) bytes (32-bit length). *)
Definition str_value (s : bytes) : res value :=
  if beqb (firstn 5 s) blob_tag then
    do d <- base64_decode (skipn 5 s);
    if base64_decode_size (wrap32 (llen s)) <? llen d then UB else Ok (VBlob [d])
  else Ok (VStr s).

(** src/JSONParser.cc:25-94 StaticCallback.  An exception also sets the status to
    S_ERROR (90-93), after which every Run throws; the state left behind by an exception
    is not modelled. *)
Definition callback (d : jd) (e : jev) : res jd :=
  let d := match d_st d with S_BEGIN => set_st d S_OK | _ => d end in
  let call k e := do b <- build (d_b d) e; Ok (add_depth (set_b d b) k) in
  match e with
  | JArrayBegin => call 1%Z BBeginList
  | JArrayEnd => call (-1)%Z BEndList
  | JObjectBegin => call 1%Z BBeginMap
  | JObjectEnd => call (-1)%Z BEndMap
  | JInteger z => call 0%Z (BScalar (VInt z))
  | JUnsigned n => call 0%Z (BScalar (VUns n))
  | JFloat x => call 0%Z (BScalar (VFlt (ld_of_d x)))
  | JNull => call 0%Z (BScalar VNull)
  | JTrue => call 0%Z (BScalar (VBool true))
  | JFalse => call 0%Z (BScalar (VBool false))
  | JKey s => call 0%Z (BScalar (VStr s))
  | JString s => do v <- str_value s; call 0%Z (BScalar v)
  end.

Fixpoint callbacks (d : jd) (es : list jev) : res jd :=
  match es with [] => Ok d | e :: es' => do d1 <- callback d e; callbacks d1 es' end.

(** The loop condition of src/JSONParser.cc:135 and 145. *)
Definition live (d : jd) : bool :=
  match d_st d with
  | S_OK | S_BEGIN => match b_acts (d_b d) with [] => false | _ => true end
  | _ => false
  end.

(** src/JSONParser.cc:140-141 and 153-154: done or error. *)
Definition settle (d : jd) : jd :=
  let '(ok, p) := jdone (d_p d) in set_st (set_p d p) (if ok then S_END else S_ERROR).

(** src/JSONParser.cc:151-158 one character. *)
Definition jd_char (d : jd) (c : ascii) : res jd :=
  let '(evs, r) := jchar (d_p d) c in
  do d <- callbacks d evs;
  do (p, ok) <- r;
  let d := set_p d p in
  Ok (match ok, d_st d with
      | true, S_OK => if (d_depth d =? 0)%Z then settle d else d
      | false, S_OK => set_st d S_ERROR
      | _, _ => d
      end).

(** src/JSONParser.cc:145-160 the characters of one chunk; also how many were read. *)
Fixpoint jd_chunk (d : jd) (cs : bytes) (n : N) : res (jd * N) :=
  match cs with
  | [] => Ok (d, n)
  | c :: t => if live d then do d1 <- jd_char d c; jd_chunk d1 t (n + 1) else Ok (d, n)
  end.

Section Driver.
  (** The ParserInput object: GetPtr with length 0 ([None] is a null pointer or length
      zero, otherwise the bytes designated), and Release. *)
  Variable I : Type.
  Variable getptr : I -> res (option bytes * I).
  Variable release : I -> N -> res I.

  (** src/JSONParser.cc:134-163 Parse. *)
  Fixpoint jd_parse (fuel : nat) (d : jd) (i : I) : res (jd * I) :=
    match fuel with
    | O => Fuel
    | S f =>
      if live d then
        do (v, i1) <- getptr i;
        match v with
        | None => Ok (settle d, i1)
        | Some cs =>
            do (d1, n) <- jd_chunk d cs 0;
            do i2 <- release i1 n;
            jd_parse f d1 i2
        end
      else Ok (d, i)
    end.

  (** src/JSONParser.cc:165-201 Run; the number is the value returned. *)
  Fixpoint jd_run (fuel : nat) (d : jd) (i : I) : res (N * jd * I) :=
    match fuel with
    | O => Fuel
    | S f =>
      match b_acts (d_b d) with
      | [] => Ok (0, d, i)
      | _ =>
        match d_st d with
        | S_START => do b <- build (d_b d) BBeginDoc; Ok (0, set_st (set_b d b) S_BEGIN, i)
        | S_BEGIN | S_OK => do (d1, i1) <- jd_parse f d i; jd_run f d1 i1
        | S_ERROR => Throw RuntimeError
        | S_END => do b <- build (d_b d) BEndDoc; Ok (1, set_st (set_b d b) S_DONE, i)
        | S_DONE => Ok (1, d, i)
        end
      end
    end.

  (** src/VariantParsing.cc:212 the loop of ParseVariant. *)
  Fixpoint pv_loop (fuel : nat) (d : jd) (i : I) : res (value * jd * I) :=
    match fuel with
    | O => Fuel
    | S f =>
        do (n, d1, i1) <- jd_run fuel d i;
        if ((n =? 0) && negb (b_done (d_b d1)))%bool then pv_loop f d1 i1
        else Ok (b_result (d_b d1), d1, i1)
    end.

  (** src/JSONParser.cc:96-106 the constructor and src/VariantParsing.cc:208-214 ParseVariant. *)
  Definition jd_new : jd := Jd jp_new S_START 0 b_new.
  Definition parse_variant (fuel : nat) (i : I) : res (value * jd * I) := pv_loop fuel jd_new i.
End Driver.
