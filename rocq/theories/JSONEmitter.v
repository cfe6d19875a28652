(** Model of src/JSONEmitter.cc. *)
From Verif Require Import Base CNum Float FloatText Value Emit Base64 ParserInput.
Open Scope N_scope.

(** The parameters (src/JSONEmitter.h:94-97); num_indent and numeric_precision are
    32-bit unsigned. *)
Record jparams := JParams { j_pretty : bool; j_strict : bool; j_indent : N; j_prec : N }.

(** src/JSONEmitter.cc:42-43 the defaults. *)
Definition jdefault : jparams := JParams false false 4 17.

(** src/JSONEmitter.h:50-57 State_t (NONE is never stored). *)
Inductive jst := MapFirst | InMapKey | InMapValue | ListFirst | InList.

(** The calls each emitter function makes to the buffering layer, in order. *)
Inductive prim :=
| PRaw (t : bytes)       (* EmitRaw(text, len) *)
| PIndent (depth : N)    (* EmitIndent() when state.size() is [depth] *)
| PFlush.                (* Flush() *)

(** src/JSONEmitter.cc:194-221 CheckSeparator.  The list is the deque [state] with
    its back first. *)
Definition check_separator (st : list jst) : list prim * list jst :=
  match st with
  | [] => ([], [])
  | MapFirst :: t => ([PIndent (llen st)], InMapValue :: t)
  | InMapKey :: t => ([PRaw (s2b ","); PIndent (llen st)], InMapValue :: t)
  | InMapValue :: t => ([PRaw (s2b ": ")], InMapKey :: t)
  | ListFirst :: t => ([PIndent (llen st)], InList :: t)
  | InList :: t => ([PRaw (s2b ","); PIndent (llen st)], InList :: t)
  end.

(** A hexadecimal digit as printed by %x. *)
Definition hex_chr (n : N) : ascii := if n <? 10 then bchr (48 + n) else bchr (87 + n).

(** snprintf "\\u%4.4x" of a value below 0x100 (src/JSONEmitter.cc:268). *)
Definition u_escape (n : N) : bytes := s2b "\u00" ++ [hex_chr (n / 16); hex_chr (n mod 16)].

(** src/JSONEmitter.cc:246-273 the text written for one character of a string. *)
Definition esc_char (c : ascii) : bytes :=
  if aeqb c "\" then s2b "\\"
  else if aeqb c (bchr 34) then ["\"%char; bchr 34]
  else if aeqb c (bchr 8) then s2b "\b"
  else if aeqb c (bchr 12) then s2b "\f"
  else if aeqb c (bchr 10) then s2b "\n"
  else if aeqb c (bchr 13) then s2b "\r"
  else if aeqb c (bchr 9) then s2b "\t"
  else if (sval c <? 0)%Z then [c]
  else if (sval c <? 32)%Z then u_escape (bval c)
  else [c].

Definition quote_char : ascii := bchr 34.

(** src/JSONEmitter.cc:243-276 EmitString; the length is 32-bit (line 107 passes strlen). *)
Definition emit_string (s : bytes) : list prim :=
  PRaw [quote_char] :: List.map (fun c => PRaw (esc_char c)) (take (wrap32 (llen s)) s) ++ [PRaw [quote_char]].

(** src/BlobMagic.h:18 MAGIC_BLOB_JSONSTR. *)
Definition blob_magic_json : bytes := s2b "\u0000BLOB".

(** What one emitter call does: the buffering calls, the new state, and the
    exception it ends with, if any. *)
Definition je_calls (p : jparams) (st : list jst) (e : eev) : res (list prim * list jst * option exn) :=
  let sep := fst (check_separator st) in
  let st1 := snd (check_separator st) in
  match e with
  | EvBeginDoc | EvEndDoc => Ok ([], st, None)                           (* 58-62 *)
  | EvBeginMap _ => Ok (sep ++ [PRaw (s2b "{")], MapFirst :: st1, None)  (* 64-68 *)
  | EvEndMap => match st with                                            (* 70-75 *)
                | [] => UB (* pop_back on an empty deque *)
                | _ :: t => Ok ([PIndent (llen t); PRaw (s2b "}"); PFlush], t, None)
                end
  | EvBeginList _ => Ok (sep ++ [PRaw (s2b "[")], ListFirst :: st1, None) (* 77-81 *)
  | EvEndList => match st with                                            (* 83-88 *)
                 | [] => UB
                 | _ :: t => Ok ([PIndent (llen t); PRaw (s2b "]"); PFlush], t, None)
                 end
  | EvNull => Ok (sep ++ [PRaw (s2b "null")], st1, None)                  (* 90-93 *)
  | EvTrue => Ok (sep ++ [PRaw (s2b "true")], st1, None)                  (* 95-98 *)
  | EvFalse => Ok (sep ++ [PRaw (s2b "false")], st1, None)                (* 100-103 *)
  | EvStr s => Ok (sep ++ emit_string s, st1, None)                       (* 105-108 *)
  | EvInt z => Ok (sep ++ [PRaw (dec_of_Z z)], st1, None)                 (* 110-115 *)
  | EvUns n => Ok (sep ++ [PRaw (dec_of_N n)], st1, None)                 (* 117-122 *)
  | EvFlt d =>                                                            (* 124-136 *)
      if (f_nan d || f_inf d)%bool then
        if j_strict p then Ok (sep, st1, Some RuntimeError)
        else Ok (sep ++ [PRaw (s2b "null")], st1, None)
      else Ok (sep ++ [PRaw (print_g (Z.of_N (j_prec p)) d)], st1, None)
  | EvBlob b =>                                                           (* 138-150 *)
      if j_strict p then Ok ([], st, Some RuntimeError)
      else do (t, n) <- base64_encode b 0;
           Ok (sep ++ [PRaw [quote_char]; PRaw blob_magic_json; PRaw (take n t); PRaw [quote_char]], st1, None)
  end.

(** ** The buffering layer, for an arbitrary output *)

(** The result of EmitterOutput::Write: a number of bytes taken, or an exception. *)
Inductive wres (W : Type) := WOk (n : N) (w : W) | WThrow (e : exn) (w : W) | WUB.
Arguments WOk {W} n w.
Arguments WThrow {W} e w.
Arguments WUB {W}.

Section Buffer.
  Context {W : Type} (write : W -> bytes -> wres W).

  (** Outcome of a function of this layer: the new state, and the exception that
      ended it, if any. *)
  Notation out := (res (W * option exn)).

  (** src/JSONEmitter.cc:154-157 and 284-287: write all of [data]. *)
  Fixpoint write_loop (fuel : nat) (w : W) (data : bytes) (num : N) : out :=
    match fuel with
    | O => Fuel
    | S f =>
      if num <? llen data then
        match write w (drop num data) with
        | WOk n w' => write_loop f w' data (wrap32 (num + n))
        | WThrow e w' => Ok (w', Some e)
        | WUB => UB
        end
      else Ok (w, None)
    end.

  (** The buffer (src/JSONEmitter.h:99-100): 512 bytes, of which [jb_len] are used. *)
  Record jbuf := JBuf { jb_mem : bytes; jb_len : N; jb_out : W }.

  Definition jb_new (w : W) : jbuf := JBuf (repeat (bchr 0) 512) 0 w.

  Notation bout := (res (jbuf * option exn)).

  (** src/JSONEmitter.cc:152-161 Flush.  [output->Flush()] is not modelled. *)
  Definition flush (fuel : nat) (b : jbuf) : bout :=
    if 0 <? jb_len b then
      do (w, x) <- write_loop fuel (jb_out b) (take (jb_len b) (jb_mem b)) 0;
      match x with
      | None => Ok (JBuf (jb_mem b) 0 w, None)
      | Some e => Ok (JBuf (jb_mem b) (jb_len b) w, Some e)
      end
    else Ok (b, None).

  (** memcpy/memset of [t] at the end of the buffer, then buffer_len += len. *)
  Definition append_buf (b : jbuf) (t : bytes) : bout :=
    if llen (jb_mem b) <? jb_len b + llen t then UB
    else Ok (JBuf (buf_store (jb_mem b) (jb_len b) t) (jb_len b + llen t) (jb_out b), None).

  (** src/JSONEmitter.cc:281-295 EmitRaw; [len] is 32-bit. *)
  Definition emit_raw (fuel : nat) (b : jbuf) (text : bytes) : bout :=
    let text := take (wrap32 (llen text)) text in
    if 128 <? llen text then
      do (b, x) <- flush fuel b;
      match x with
      | Some e => Ok (b, Some e)
      | None => do (w, x) <- write_loop fuel (jb_out b) text 0;
                Ok (JBuf (jb_mem b) (jb_len b) w, x)
      end
    else
      do (b, x) <- (if 512 <? llen text + jb_len b then flush fuel b else Ok (b, None));
      match x with Some e => Ok (b, Some e) | None => append_buf b text end.

  (** src/JSONEmitter.cc:230-233 writing the indentation directly. *)
  Fixpoint indent_loop (fuel : nat) (w : W) (mem : bytes) (pos indent num : N) : out :=
    match fuel with
    | O => Fuel
    | S f =>
      if num <? indent then
        match write w (take (N.min (indent - num) 128) (drop pos mem)) with
        | WOk n w' => indent_loop f w' mem pos indent (wrap32 (num + n))
        | WThrow e w' => Ok (w', Some e)
        | WUB => UB
        end
      else Ok (w, None)
    end.

  Definition spaces (n : N) : bytes := repeat " "%char (N.to_nat n).

  (** src/JSONEmitter.cc:223-241 EmitIndent; the product is truncated to 32 bits. *)
  Definition emit_indent (fuel : nat) (p : jparams) (b : jbuf) (depth : N) : bout :=
    if negb (j_pretty p) then Ok (b, None) else
    do (b, x) <- emit_raw fuel b [bchr 10];
    match x with Some e => Ok (b, Some e) | None =>
      let indent := wrap32 (depth * j_indent p) in
      if 128 <? indent then
        do (b, x) <- flush fuel b;
        match x with
        | Some e => Ok (b, Some e)
        | None =>
            if llen (jb_mem b) <? jb_len b + 128 then UB else
            let mem := buf_store (jb_mem b) (jb_len b) (spaces 128) in
            do (w, x) <- indent_loop fuel (jb_out b) mem (jb_len b) indent 0;
            Ok (JBuf mem (jb_len b) w, x)
        end
      else
        do (b, x) <- (if 512 <? indent + jb_len b then flush fuel b else Ok (b, None));
        match x with Some e => Ok (b, Some e) | None => append_buf b (spaces indent) end
    end.

  Definition exec_prim (fuel : nat) (p : jparams) (b : jbuf) (c : prim) : bout :=
    match c with
    | PRaw t => emit_raw fuel b t
    | PIndent d => emit_indent fuel p b d
    | PFlush => flush fuel b
    end.

  Fixpoint exec_prims (fuel : nat) (p : jparams) (b : jbuf) (cs : list prim) : bout :=
    match cs with
    | [] => Ok (b, None)
    | c :: t => do (b, x) <- exec_prim fuel p b c;
                match x with Some e => Ok (b, Some e) | None => exec_prims fuel p b t end
    end.

  (** A sequence of emitter calls. *)
  Fixpoint je_run (fuel : nat) (p : jparams) (st : list jst) (b : jbuf) (es : list eev)
    : res (list jst * jbuf * option exn) :=
    match es with
    | [] => Ok (st, b, None)
    | e :: t =>
        do (cs, st', x) <- je_calls p st e;
        do (b, y) <- exec_prims fuel p b cs;
        match y, x with
        | Some e, _ => Ok (st', b, Some e)
        | None, Some e => Ok (st', b, Some e)
        | None, None => je_run fuel p st' b t
        end
    end.

  (** src/VariantEmitting.cc:75-104 Serialize: emit the value, Close, destroy the
      emitter.  The destructor (src/JSONEmitter.cc:54-56) calls Close again; an
      exception leaving it terminates the program. *)
  Definition je_serialize (fuel : nat) (p : jparams) (w : W) (v : value) : res W :=
    do (_, b, x) <- je_run fuel p [] (jb_new w) (emit_value v);
    do (b, x) <- match x with Some e => Ok (b, Some e) | None => flush fuel b end;
    do (b, y) <- flush fuel b;
    match y with
    | Some _ => Abort
    | None => match x with Some e => Throw e | None => Ok (jb_out b) end
    end.
End Buffer.
Arguments JBuf {W} jb_mem jb_len jb_out.
Arguments jb_mem {W} j.
Arguments jb_len {W} j.
Arguments jb_out {W} j.
