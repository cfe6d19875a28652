(** Model of src/ParserInput.cc: buffered stream input and memory input. *)
From Verif Require Import Base.
Open Scope N_scope.

Definition llen {A} (l : list A) : N := N.of_nat (List.length l).
Definition take {A} (n : N) (l : list A) : list A := firstn (N.to_nat n) l.
Definition drop {A} (n : N) (l : list A) : list A := skipn (N.to_nat n) l.

(** The underlying stream behind the virtual [Read] (include/Variant/ParserInput.h:49-51):
    its remaining bytes, and for each coming call of Read an upper limit on how
    many bytes it hands over ([None] = no limit: fread / sgetn, which return less
    than asked only at the end of the stream). *)
Record source := Source { src_data : bytes; src_limits : list (option N) }.

(** One call [Read(ptr, to_read)]: the bytes obtained. *)
Definition src_read (s : source) (to_read : N) : bytes * source :=
  let lim := match src_limits s with Some n :: _ => N.min n to_read | _ => to_read end in
  (take lim (src_data s), Source (drop lim (src_data s)) (tl (src_limits s))).

(** include/Variant/ParserInput.h:52-56 the members of ParserStreamInput. *)
Record sinput := SInput {
  si_buf : bytes;   (* buffer *)
  si_num : N;       (* num *)
  si_off : N;       (* offset *)
  si_eof : bool;    (* eof *)
  si_src : source
}.

(** src/ParserInput.cc:39-46 the constructor; std::vector zero-initialises. *)
Definition si_new (buffer_len : N) (src : source) : sinput :=
  SInput (repeat (bchr 0) (N.to_nat buffer_len)) 0 0 false src.

(** Copying [got] into the buffer at position [pos]. *)
Definition buf_store (buf : bytes) (pos : N) (got : bytes) : bytes :=
  take pos buf ++ got ++ drop (pos + llen got) buf.

(** src/ParserInput.cc:67-72 the reading loop. *)
Fixpoint fill_loop (fuel : nat) (s : sinput) (len : N) : res sinput :=
  match fuel with
  | O => Fuel
  | S f =>
    if (negb (si_eof s) && ((si_num s <? len) || (si_num s =? 0)))%bool then
      (* unsigned to_read = buffer.size() - num - offset; &buffer[num + offset] *)
      let to_read := llen (si_buf s) - si_num s - si_off s in
      if llen (si_buf s) <? si_num s + si_off s then UB else
      let '(got, src) := src_read (si_src s) to_read in
      fill_loop f (SInput (buf_store (si_buf s) (si_num s + si_off s) got)
                          (si_num s + llen got) (si_off s)
                          (llen got <? to_read) src) len
    else Ok s
  end.

(** src/ParserInput.cc:57-66 making room: the buffer is shifted or replaced by a
    larger one. *)
Definition make_room (s : sinput) (len : N) : res sinput :=
  if llen (si_buf s) <? wrap32 (len + si_off s) then
    let view := take (si_num s) (drop (si_off s) (si_buf s)) in
    if llen (si_buf s) <? si_off s + si_num s then UB (* memmove source out of range *) else
    if llen (si_buf s) <? len then
      if len <? si_num s then UB (* memmove target too small *) else
      Ok (SInput (buf_store (repeat (bchr 0) (N.to_nat len)) 0 view) (si_num s) 0 (si_eof s) (si_src s))
    else Ok (SInput (buf_store (si_buf s) 0 view) (si_num s) 0 (si_eof s) (si_src s))
  else Ok s.

(** The result of GetPtr: [None] is a null pointer, otherwise the position in the
    buffer; and the length returned through the reference parameter. *)
Definition ptr_result := (option N * N)%type.

(** src/ParserInput.cc:48-76 ParserStreamInput::GetPtr. *)
Definition si_getptr (fuel : nat) (s : sinput) (len : N) : res (ptr_result * sinput) :=
  if si_eof s then
    Ok ((if si_num s =? 0 then None else Some (si_off s), si_num s), s)
  else if ((len <=? si_num s) && (0 <? si_num s))%bool then
    Ok ((Some (si_off s), si_num s), s)
  else
    do s1 <- make_room s len;
    do s2 <- fill_loop fuel s1 len;
    Ok ((if ((si_num s2 =? 0) && si_eof s2)%bool then None else Some (si_off s2), si_num s2), s2).

(** src/ParserInput.cc:78-88 ParserStreamInput::Release. *)
Definition si_release (s : sinput) (len : N) : res sinput :=
  if si_num s <? len then Throw RuntimeError
  else if len =? si_num s then Ok (SInput (si_buf s) 0 0 (si_eof s) (si_src s))
  else Ok (SInput (si_buf s) (si_num s - len) (si_off s + len) (si_eof s) (si_src s)).

(** ** Memory input (src/ParserInput.cc:94-111) *)
Record minput := MInput { mi_data : bytes; mi_off : N }.

(** src/ParserInput.cc:97-107 ParserMemoryInput::GetPtr. *)
Definition mi_getptr (m : minput) : res ptr_result :=
  if llen (mi_data m) <? mi_off m then Throw LengthError
  else let len := llen (mi_data m) - mi_off m in
       Ok (if 0 <? len then Some (mi_off m) else None, len).

(** src/ParserInput.cc:109-111 ParserMemoryInput::Release (32-bit sum). *)
Definition mi_release (m : minput) (len : N) : minput := MInput (mi_data m) (wrap32 (mi_off m + len)).

(** ** Operation sequences *)
Inductive iop := GetPtr (len : N) | Release (len : N).

(** What the caller observes: for GetPtr, [None] = null, [Some v] = the bytes
    the returned pointer and length designate. *)
Inductive iout := OPtr (v : option bytes) | ODone.

Definition si_view (s : sinput) (r : ptr_result) : res (option bytes) :=
  match fst r with
  | None => Ok None
  | Some p => if llen (si_buf s) <? p + snd r then UB
              else Ok (Some (take (snd r) (drop p (si_buf s))))
  end.

Definition si_step (fuel : nat) (s : sinput) (o : iop) : res (iout * sinput) :=
  match o with
  | GetPtr len => do (r, s') <- si_getptr fuel s len; do v <- si_view s' r; Ok (OPtr v, s')
  | Release len => do s' <- si_release s len; Ok (ODone, s')
  end.

Fixpoint si_run (fuel : nat) (s : sinput) (ops : list iop) : res (list iout * sinput) :=
  match ops with
  | [] => Ok ([], s)
  | o :: ops' => do (x, s1) <- si_step fuel s o; do (xs, s2) <- si_run fuel s1 ops'; Ok (x :: xs, s2)
  end.

Definition mi_view (m : minput) (r : ptr_result) : option bytes :=
  match fst r with None => None | Some p => Some (take (snd r) (drop p (mi_data m))) end.

Definition mi_step (m : minput) (o : iop) : res (iout * minput) :=
  match o with
  | GetPtr _ => do r <- mi_getptr m; Ok (OPtr (mi_view m r), m)
  | Release len => Ok (ODone, mi_release m len)
  end.

Fixpoint mi_run (m : minput) (ops : list iop) : res (list iout * minput) :=
  match ops with
  | [] => Ok ([], m)
  | o :: ops' => do (x, m1) <- mi_step m o; do (xs, m2) <- mi_run m1 ops'; Ok (x :: xs, m2)
  end.
