(** Model of src/Payload.cc: a document followed by a binary payload. *)
From Verif Require Import Base CNum Float Value ValueOps Path Emit Numeric Blob ParserInput GuessFormat Deserialize
  JSONEmitter Bundle JSONDriver.
Open Scope N_scope.

(** ** Writing *)

(** Emitter calls one after the other; an exception ends them. *)
Notation calls := (list eev * option exn)%type.
Definition ethen (a b : calls) : calls :=
  match snd a with Some _ => a | None => (fst a ++ fst b, snd b) end.
Definition ecall (e : eev) : calls := ([e], None).

(** unsigned to int, as in BeginList(length) of src/Payload.cc:67 and 95. *)
Definition int_of_u32 (n : N) : Z := (((Z.of_N n + 2^31) mod 2^32) - 2^31)%Z.

(** src/Payload.cc:69-70 and 97-99: the path below the element with this index or key, if
    the element is on it. *)
Definition step_idx (p : option path) (i : N) : option path :=
  match p with Some (PIdx j :: r) => if i =? j then Some r else None | _ => None end.
Definition step_key (p : option path) (k : bytes) : option path :=
  match p with Some (PKey j :: r) => if beqb k j then Some r else None | _ => None end.

(** src/Payload.cc:81-89 and 110-118: the length where the document has no place for it yet;
    [rest] is [newpath].  SetPath on a null never throws (src/Variant.cc:432-454). *)
Definition emit_length (n : N) (rest : path) : calls :=
  match rest with
  | [] => ecall (EvUns n)
  | _ => match vset VNull rest (VUns n) with
         | Some tmp => (emit_value tmp, None)
         | None => ([], Some UnexpectedTypeError)
         end
  end.

(** src/Payload.cc:22-130 PayloadEmit.  [lp] is [Some] of the path from [len_i] to the end
    when [on_len_path], else [None]; [dp] likewise for [data_i].  [AsUnsigned] and [AsString]
    of a path element (include/Variant/Path.h:75-80) throw BadPathError when it is of the
    other kind.  Lists are shorter than 2^32 elements, so [index] is the position. *)
Fixpoint payload_emit (n : N) (v : value) (lp dp : option path) {struct v} : calls :=
  match lp, dp with
  | Some [], _ => ecall (EvUns n)
  | _, Some [] => ecall EvNull
  | _, _ =>
    match v with
    | VList l =>
        match lp with
        | Some (PKey _ :: _) => ([], Some BadPathError)
        | _ =>
          let size := llen l in
          let length := match lp with Some (PIdx i :: _) => if size <=? i then wrap32 (i + 1) else size | _ => size end in
          ethen (ecall (EvBeginList (int_of_u32 length)))
          (ethen ((fix elems (l : list value) (index : N) : calls :=
                     match l with
                     | [] => ([], None)
                     | x :: t => match dp with
                                 | Some (PKey _ :: _) => ([], Some BadPathError)
                                 | _ => ethen (payload_emit n x (step_idx lp index) (step_idx dp index)) (elems t (index + 1))
                                 end
                     end) l 0)
          (ethen (match lp with
                  | Some (PIdx i :: rest) =>
                      (* 77-90: the condition is true when the element was already written; the
                         inner loop ends when the 32-bit index comes round to zero *)
                      if i <? size then ethen (repeat EvNull (N.to_nat (2^32 - size)), None) (emit_length n rest) else ([], None)
                  | _ => ([], None)
                  end)
                 (ecall EvEndList)))
        end
    | VMap m =>
        match lp, dp with
        | Some (PIdx _ :: _), _ => ([], Some BadPathError)
        | _, Some (PIdx _ :: _) => ([], Some BadPathError)
        | _, _ =>
          let size := llen m in
          let missing := match lp with Some (PKey k :: _) => match mget k m with None => true | Some _ => false end | _ => false end in
          let size := if missing then wrap32 (size + 1) else size in
          let size := match dp with Some (PKey k :: _) => match mget k m with Some _ => wrap32 (size + 2^32 - 1) | None => size end | _ => size end in
          ethen (ecall (EvBeginMap (int_of_u32 size)))
          (ethen ((fix entries (m : list (bytes * value)) : calls :=
                     match m with
                     | [] => ([], None)
                     | kv :: t =>
                         let data := step_key dp (fst kv) in
                         ethen (match data with
                                | Some [] => ([], None)
                                | _ => ethen (ecall (EvStr (c_str (fst kv)))) (payload_emit n (snd kv) (step_key lp (fst kv)) data)
                                end)
                               (entries t)
                     end) m)
          (ethen (match lp with
                  | Some (PKey k :: rest) =>
                      if missing then ethen (ecall (EvStr (c_str k))) (emit_length n rest) else ([], None)
                  | _ => ([], None)
                  end)
                 (ecall EvEndMap)))
        end
    | _ => (emit_value v, None)
    end
  end.

(** The parameters that are read (src/Payload.cc:138-147, 158): the two paths, parsed;
    ignore_payload; payload_length. *)
Record pparams := PParams { pp_data : path; pp_length : path; pp_ignore : bool; pp_override : option N }.
(** include/Variant/Payload.h:38-45 the default paths. *)
Definition default_data : bytes := s2b "payload/data".
Definition default_length : bytes := s2b "payload/length".
Definition bundle_data : bytes := s2b "payload.data".
Definition bundle_length : bytes := s2b "payload.length".
Definition default_params (d l : bytes) : res pparams :=
  do d <- parse_path d; do l <- parse_path l; Ok (PParams d l false None).

(** src/Payload.cc:148-158: the blob, if there is one, and the length written.  HasPath and
    GetPath on a tree look up the path (src/Variant.cc:409-430; C13_paths_exact). *)
Definition payload_of (v : value) (pp : pparams) : res (option blob * N) :=
  do (blob, n) <-
    match vat v (pp_data pp) with
    | Some (VBlob b) => Ok (Some b, total_length b)
    | Some _ => Throw UnableToConvertError
    | None => if pp_ignore pp
              then do n <- as_uns (match vat v (pp_length pp) with Some x => x | None => VInt 0 end); Ok (None, n)
              else Ok (None, 0)
    end;
  Ok (blob, match pp_override pp with Some k => k | None => n end).

Section Output.
  Context {W : Type} (write : W -> bytes -> wres W).
  (** [NumBytesWritten()] (include/Variant/EmitterOutput.h:38). *)
  Variable num_bytes : W -> N.
  (** A sequence of calls and Flush of the emitter for the format chosen. *)
  Variable emit : W -> list eev -> res (W * option exn).

  (** src/Payload.cc:179-181 writing the padding; [buf] is [num] newlines and a NUL. *)
  Fixpoint pad_loop (fuel : nat) (w : W) (buf : bytes) (num written : N) : res (W * option exn) :=
    match fuel with
    | O => Fuel
    | S f =>
        if written <? num then
          match write w (drop written buf) with
          | WOk k w' => pad_loop f w' buf num (wrap32 (written + k))
          | WThrow e w' => Ok (w', Some e)
          | WUB => UB
          end
        else Ok (w, None)
    end.

  (** src/Payload.cc:184-193 the buffers of the blob. *)
  Fixpoint slabs (fuel : nat) (w : W) (b : blob) : res (W * option exn) :=
    match b with
    | [] => Ok (w, None)
    | x :: t => do (w, y) <- write_loop write fuel w x 0;
                match y with Some e => Ok (w, Some e) | None => slabs fuel w t end
    end.

  (** src/Payload.cc:175-176. *)
  Definition pad_size (written : N) : N := 32 - (written + 1) mod 32.

  (** src/Payload.cc:132-195 SerializeWithPayload to an output.  The sum in line 175 is
      32-bit, which changes nothing modulo 32. *)
  Definition serialize_payload (fuel : nat) (w : W) (v : value) (pp : pparams) : res (W * option exn) :=
    match v with
    | VMap _ =>
        do (blob, n) <- payload_of v pp;
        let '(es, x) := payload_emit n v (Some (pp_length pp)) (Some (pp_data pp)) in
        do (w, y) <- emit w (EvBeginDoc :: es ++ match x with None => [EvEndDoc] | Some _ => [] end);
        match y, x with
        | Some e, _ | None, Some e => Ok (w, Some e)
        | None, None =>
            let num := pad_size (num_bytes w) in
            do (w, y) <- pad_loop fuel w (repeat (bchr 10) (N.to_nat num) ++ [bchr 0]) num 0;
            match y with
            | Some e => Ok (w, Some e)
            | None => match blob with
                      | Some b => if pp_ignore pp then Ok (w, None) else slabs fuel w b
                      | None => Ok (w, None)
                      end
            end
        end
    | _ => Throw RuntimeError
    end.
End Output.

(** The JSON emitter.  When the calls end with an exception the destructor flushes what is buffered. *)
Definition json_emit {W} (write : W -> bytes -> wres W) (fuel : nat) (p : jparams) (w : W) (es : list eev) : res (W * option exn) :=
  do (_, b, x) <- je_run write fuel p [] (jb_new w) es;
  do (b, y) <- flush write fuel b;
  match x, y with
  | Some _, Some _ => Abort
  | Some e, None | None, Some e => Ok (jb_out b, Some e)
  | None, None => Ok (jb_out b, None)
  end.
(** The bundle header emitter (src/BundleHdrEmitter.cc; it has no buffer of its own). *)
Definition bundle_emit {W} (write : W -> bytes -> wres W) (fuel : nat) (w : W) (es : list eev) : res (W * option exn) :=
  do (_, w, x) <- be_run write fuel be_prec BE_START w es; Ok (w, x).

(** ** Reading *)

(** src/Payload.cc:197-207 ProxyInput: the input behind it and [scanned_to]. *)
Record proxy := Proxy { px_in : pinput; px_scan : N }.

(** strnlen. *)
Fixpoint strnlen (s : bytes) : N :=
  match s with [] => 0 | c :: t => if aeqb c (bchr 0) then 0 else 1 + strnlen t end.

(** src/Payload.cc:215-225 GetPtr.  Line 219 reads [ptr[scanned_to]]: beyond the bytes the
    pointer designates that is undefined.  [None] stands for a null pointer and for length
    zero, which both parsers treat alike (src/JSONParser.cc:139, src/BundleHdrParser.cc:20-23). *)
Definition px_view (i : proxy) (len : N) : res (option bytes * proxy) :=
  do (v, b) <- in_view_len (px_in i) len;
  match v with
  | None => Ok (None, Proxy b (px_scan i))
  | Some cs =>
      match nth_error cs (N.to_nat (px_scan i)) with
      | None => UB
      | Some c =>
          let scan := if aeqb c (bchr 0) then px_scan i else px_scan i + strnlen (drop (px_scan i) cs) in
          Ok (match take scan cs with [] => None | t => Some t end, Proxy b scan)
      end
  end.
(** src/Payload.cc:227-230 Release; the difference is 32-bit. *)
Definition px_release (i : proxy) (n : N) : res proxy :=
  do b <- in_release (px_in i) n;
  Ok (Proxy b (wrap32 (px_scan i + 2^32 - n))).

(** src/Payload.cc:250-264 skipping to behind the next NUL. *)
Fixpoint skip_nul (fuel : nat) (i : pinput) : res pinput :=
  match fuel with
  | O => Fuel
  | S f =>
      do (v, i) <- in_view_len i 1;
      match v with
      | None | Some [] => Ok i
      | Some cs =>
          let k := strnlen cs in
          if k <? llen cs then in_release i (k + 1)
          else do i <- in_release i k; skip_nul f i
      end
  end.

(** src/Payload.cc:266-285 the payload.  [GetPtr] gets the length as 32 bits; the blob has
    one buffer, be it a copy or a reference. *)
Definition read_payload (i : pinput) (ret : value) (pp : pparams) : res (value * pinput) :=
  do n <- as_uns (match vat ret (pp_length pp) with Some x => x | None => VUns 0 end);
  if 0 <? n then
    do (v, i) <- in_view_len i (wrap32 n);
    let cs := match v with Some cs => cs | None => [] end in
    if llen cs <? n then Throw RuntimeError else
    do i <- in_release i (wrap32 n);
    match vset ret (pp_data pp) (VBlob [take n cs]) with
    | Some ret => Ok (ret, i)
    | None => Throw UnexpectedTypeError
    end
  else Ok (ret, i).

(** src/Payload.cc:232-286 DeserializeWithPayload; [parse] is ParseVariant with the parser
    for the format chosen. *)
Definition deserialize_payload {D} (parse : proxy -> res (value * D * proxy)) (fuel : nat) (i : pinput) (pp : pparams) : res (value * pinput) :=
  do (ret, _, px) <- parse (Proxy i 0);
  do i <- skip_nul fuel (px_in px);
  read_payload i ret pp.
Definition json_parse (fuel : nat) : proxy -> _ := parse_variant proxy (fun i => px_view i 0) px_release fuel.
Definition bundle_parse (fuel : nat) (errno : list bool) : proxy -> _ := bh_parse proxy px_view px_release fuel errno.
