(** Model of src/MsgPackEmitter.cc.  The msgpack library is not part of the code: its
    packing functions are represented by the tokens they write. *)
From Verif Require Import Base Float Value Emit Blob EventBuffer.
Open Scope N_scope.

(** What the packer writes: the object headers of the MessagePack format (map and array
    with their counts, raw with its byte count), whole scalars, and body bytes
    (msgpack_pack_map, _array, _raw, _nil, _true, _false, _int64, _uint64, _double,
    _raw_body). *)
Inductive ptok :=
| PMap (n : N) | PArray (n : N) | PRaw (n : N) | PByte (c : ascii)
| PNil | PTrue | PFalse | PInt (z : Z) | PUns (n : N) | PDouble (d : spec_float).

Definition pbytes (s : bytes) : list ptok := List.map PByte s.

(** MAGIC_BLOB_TAG (src/BlobMagic.h:17). *)
Definition magic : bytes := bchr 0 :: s2b "BLOB".

(** src/MsgPackEmitter.h: the buffer pointer and what reached the packer.  Output errors
    are not modelled: MsgPackPackerWrite (src/MsgPackEmitter.cc:16-18) returns the number of
    bytes written. *)
Record mp := MP { mp_buf : option ebuf; mp_out : list ptok }.
Definition mp_new : mp := MP None [].

Definition mp_put (m : mp) (l : list ptok) : mp := MP (mp_buf m) (mp_out m ++ l).

(** src/MsgPackEmitter.cc:80-124: a scalar when nothing is buffered.  A length converted to
    unsigned is 32 bits. *)
Definition mp_scalar (e : eev) : list ptok :=
  match e with
  | EvNull => [PNil]
  | EvTrue => [PTrue]
  | EvFalse => [PFalse]
  | EvStr s => PRaw (wrap32 (N.of_nat (List.length s))) :: pbytes s
  | EvInt z => [PInt z]
  | EvUns n => [PUns n]
  | EvFlt d => [PDouble d]
  | EvBlob b => PRaw (wrap32 (total_length b + 5)) :: pbytes magic ++ flat_map pbytes b
  | _ => []
  end.

(** src/MsgPackEmitter.cc:31-124: one call.  Playback (58-61, 73-76) calls this emitter
    again, through [mp_emit]; [fuel] bounds the depth of these recursive calls. *)
Fixpoint mp_emit (fuel : nat) (m : mp) (e : eev) : res mp :=
  match fuel with
  | O => Fuel
  | S f =>
    let fix replay (m : mp) (es : list eev) : res mp :=
      match es with [] => Ok m | x :: t => do m1 <- mp_emit f m x; replay m1 t end in
    let buffered (b : ebuf) := do b1 <- eb_emit b e; Ok (MP (Some b1) (mp_out m)) in
    (* EndMap / EndList with a buffer *)
    let close (b : ebuf) :=
      do b1 <- eb_emit b e;
      if (eb_level b1 <=? 0)%Z then
        do (xs, _) <- eb_playback b1; replay (MP None (mp_out m)) xs
      else Ok (MP (Some b1) (mp_out m)) in
    let open (len : Z) (tok : N -> ptok) :=
      match mp_buf m with
      | Some b => buffered b
      | None => if (len <? 0)%Z then buffered eb_new else Ok (mp_put m [tok (Z.to_N len)])
      end in
    match e with
    | EvBeginDoc | EvEndDoc => Ok m
    | EvBeginMap len => open len PMap
    | EvBeginList len => open len PArray
    | EvEndMap | EvEndList => match mp_buf m with Some b => close b | None => Ok m end
    | _ => match mp_buf m with Some b => buffered b | None => Ok (mp_put m (mp_scalar e)) end
    end
  end.

(** The same calls in order. *)
Fixpoint mp_emits (fuel : nat) (m : mp) (es : list eev) : res mp :=
  match es with [] => Ok m | e :: t => do m1 <- mp_emit fuel m e; mp_emits fuel m1 t end.

(** ** Reading

    The unpacker (msgpack/unpack_template.h) is library code; [unpack] describes how it
    drives the callbacks of src/MsgPackParser.cc over the tokens of one object. *)
From Verif Require Import Convert Builder.

(** An open array or map: vmpu_object::count (src/MsgPackParser.cc:17-20), and for a map
    whether a key is next. *)
Inductive frame := FArray (count : N) | FMap (count : N) (key : bool).

(** The unpacker: the frames, the raw body being read (length, bytes so far), and the
    calls made on the Variant-building actions; [m_done] when the root object is complete. *)
Record unp := Unp { m_frames : list frame; m_raw : option (N * bytes); m_calls : list bev; m_done : bool }.

(** src/MsgPackParser.cc:137-144 callback_array_item and 156-164 callback_map_item, run by
    the template each time an object inside a container is complete; the template pops the
    container when its count is used up, which completes that container in turn. *)
Fixpoint object_done (fs : list frame) (calls : list bev) : unp :=
  match fs with
  | [] => Unp [] None calls true
  | FArray c :: t =>
      let c := wrap64 (c + (2^64 - 1)) in
      if c =? 0 then object_done t (calls ++ [BEndList]) else Unp (FArray c :: t) None calls false
  | FMap c true :: t => Unp (FMap c false :: t) None calls false
  | FMap c false :: t =>
      let c := wrap64 (c + (2^64 - 1)) in
      if c =? 0 then object_done t (calls ++ [BEndMap]) else Unp (FMap c true :: t) None calls false
  end.

(** src/MsgPackParser.cc:166-176 callback_raw; 5 is MAGIC_BLOB_LENGTH. *)
Definition raw_value (p : bytes) : value :=
  if ((5 <=? N.of_nat (List.length p)) && beqb (firstn 5 p) magic)%bool
  then VBlob [skipn 5 p] else VStr p.

(** One token.  [limit] is the nesting the template allows (MSGPACK_EMBED_STACK_SIZE);
    deeper input is a parse error (src/MsgPackParser.cc:214-221).  The callbacks are
    src/MsgPackParser.cc:49-135, 146-154; a non-negative number is packed and read as unsigned. *)
Definition unpack_token (limit : nat) (u : unp) (t : ptok) : res unp :=
  let scalar v := Ok (object_done (m_frames u) (m_calls u ++ [BScalar v])) in
  if m_done u then Ok u else
  match m_raw u with
  | Some (n, s) =>
      match t with
      | PByte c =>
          let s := s ++ [c] in
          if N.of_nat (List.length s) =? n then scalar (raw_value s)
          else Ok (Unp (m_frames u) (Some (n, s)) (m_calls u) false)
      | _ => Throw RuntimeError
      end
  | None =>
      match t with
      | PByte _ => Throw RuntimeError
      | PNil => scalar VNull
      | PTrue => scalar (VBool true)
      | PFalse => scalar (VBool false)
      | PInt z => scalar (if (z <? 0)%Z then VInt z else VUns (Z.to_N z))
      | PUns n => scalar (VUns n)
      | PDouble d => scalar (VFlt (ld_of_d d))
      | PRaw n => if n =? 0 then scalar (raw_value [])
                  else Ok (Unp (m_frames u) (Some (n, [])) (m_calls u) false)
      | PArray n =>
          if n =? 0 then Ok (object_done (m_frames u) (m_calls u ++ [BBeginList; BEndList]))
          else if Nat.leb limit (List.length (m_frames u)) then Throw RuntimeError
          else Ok (Unp (FArray n :: m_frames u) None (m_calls u ++ [BBeginList]) false)
      | PMap n =>
          if n =? 0 then Ok (object_done (m_frames u) (m_calls u ++ [BBeginMap; BEndMap]))
          else if Nat.leb limit (List.length (m_frames u)) then Throw RuntimeError
          else Ok (Unp (FMap n true :: m_frames u) None (m_calls u ++ [BBeginMap]) false)
      end
  end.

Fixpoint unpack (limit : nat) (u : unp) (ts : list ptok) : res unp :=
  match ts with [] => Ok u | t :: r => do u1 <- unpack_token limit u t; unpack limit u1 r end.

(** src/MsgPackParser.cc:194-242 Run driven to the end of the document, with the
    Variant-building actions: BeginDocument, the object, EndDocument.  How the input
    arrives in pieces is not modelled. *)
Definition mp_parse (limit : nat) (ts : list ptok) : res value :=
  do u <- unpack limit (Unp [] None [BBeginDoc] false) ts;
  if m_done u then
    do b <- builds b_new (m_calls u ++ [BEndDoc]);
    Ok (b_result b)
  else Throw RuntimeError.
