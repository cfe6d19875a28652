(** Model of src/Base64.cc. *)
From Verif Require Import Base.
Open Scope N_scope.

(** A scatter-gather list [struct iovec[]]: one byte list per buffer. *)
Notation iovec := (list bytes).

(** src/Base64.cc:14-53 class iov_iterator: (slab, offset).  Simplified: the
    32-bit wrap of [offset] and [slab] is not modelled; the theorems about the
    encoder assume a total length far below 2^32. *)
Definition iov_it := (nat * nat)%type.

(** src/Base64.cc:18 the constructor. *)
Definition iov_begin : iov_it := (O, O).

(** src/Base64.cc:42-46 end(): the loop of operator++ always stops with
    slab = len and offset = 0. *)
Definition iov_end (iov : iovec) : iov_it := (List.length iov, O).

(** src/Base64.cc:37-39 operator==. *)
Definition iov_eqb (a b : iov_it) : bool := (Nat.eqb (fst a) (fst b) && Nat.eqb (snd a) (snd b))%bool.

(** src/Base64.cc:33-35 operator*: reading past the end of a buffer (which
    happens on an empty buffer) is undefined behaviour. *)
Definition iov_deref (iov : iovec) (it : iov_it) : res ascii :=
  match nth_error iov (fst it) with
  | None => UB
  | Some b => match nth_error b (snd it) with None => UB | Some c => Ok c end
  end.

(** src/Base64.cc:19-26 operator++. *)
Definition iov_incr (iov : iovec) (it : iov_it) : res iov_it :=
  match nth_error iov (fst it) with
  | None => UB
  | Some b => if Nat.leb (List.length b) (S (snd it)) then Ok (S (fst it), O) else Ok (fst it, S (snd it))
  end.

(** [*i++], used at src/Base64.cc:72, 83, 93. *)
Definition iov_next (iov : iovec) (it : iov_it) : res (ascii * iov_it) :=
  do c <- iov_deref iov it; do it' <- iov_incr iov it; Ok (c, it').

(** src/Base64.cc:56 the encoding table. *)
Definition encoding : bytes := s2b "ABCDEFGHIJKLMNOPQRSTUVWXYZabcdefghijklmnopqrstuvwxyz0123456789+/".

(** src/Base64.cc:61-65 PUSH_VALUE. *)
Definition push_value (r : N) : ascii :=
  if 63 <? r then "="%char else nth (N.to_nat r) encoding "="%char.

Definition NL : ascii := bchr 10.

(** src/Base64.cc:69-103 the encoding loop: returns the characters written from
    here on.  [step] is step_count. *)
Fixpoint enc_loop (fuel : nat) (iov : iovec) (cpl : N) (it : iov_it) (step : N) : res bytes :=
  match fuel with
  | O => Fuel
  | S f =>
    if iov_eqb it (iov_end iov) then Ok [] else
    do (c1, it1) <- iov_next iov it;
    let o1 := push_value (N.shiftr (N.land (bval c1) 252) 2) in
    let r := N.shiftl (N.land (bval c1) 3) 4 in
    if iov_eqb it1 (iov_end iov) then Ok [o1; push_value r; "="%char; "="%char] else
    do (c2, it2) <- iov_next iov it1;
    let o2 := push_value (N.lor r (N.shiftr (N.land (bval c2) 240) 4)) in
    let r := N.shiftl (N.land (bval c2) 15) 2 in
    if iov_eqb it2 (iov_end iov) then Ok [o1; o2; push_value r; "="%char] else
    do (c3, it3) <- iov_next iov it2;
    let o3 := push_value (N.lor r (N.shiftr (N.land (bval c3) 192) 6)) in
    let o4 := push_value (N.land (bval c3) 63) in
    let step := wrap32 (step + 1) in
    let brk := ((0 <? cpl) && (step =? cpl / 4))%bool in
    do rest <- enc_loop f iov cpl it3 (if brk then 0 else step);
    Ok ([o1; o2; o3; o4] ++ (if brk then [NL] else []) ++ rest)
  end.

(** src/Base64.cc:55-108 Base64Encode(char*, const iovec*, unsigned, unsigned):
    the characters stored before the terminating NUL of line 106, and the
    returned length. *)
Definition base64_encode (iov : iovec) (cpl : N) : res (bytes * N) :=
  do t <- enc_loop (S (List.length (List.concat iov))) iov cpl iov_begin 0;
  let t := t ++ (if 0 <? cpl then [NL] else []) in
  Ok (t, wrap32 (N.of_nat (List.length t))).

(** src/Base64.cc:9-12 Base64Encode(char*, const void*, unsigned, unsigned). *)
Definition base64_encode_buf (data : bytes) (cpl : N) : res (bytes * N) := base64_encode [data] cpl.

(** src/Base64.cc:110-117 Base64EncodeSize; every operation on 32 bits. *)
Definition base64_encode_size (len cpl : N) : N :=
  let r := wrap32 (wrap32 (len * 4) / 3 + 4) in
  if 0 <? cpl then wrap32 (r + wrap32 (2 * (wrap32 (r / cpl + 1)))) else wrap32 (r + 1).

(** src/Base64.cc:120 the decoding table. *)
Definition decoding : list Z :=
 [62;-1;-1;-1;63;52;53;54;55;56;57;58;59;60;61;-1;-1;-1;-2;-1;-1;-1;0;1;2;3;4;5;6;7;8;9;10;11;12;13;14;15;16;17;18;19;20;21;22;23;24;25;-1;-1;-1;-1;-1;-1;26;27;28;29;30;31;32;33;34;35;36;37;38;39;40;41;42;43;44;45;46;47;48;49;50;51]%Z.

(** src/Base64.cc:121. *)
Definition decoding_size : Z := 80.

(** Conversion to [signed char]. *)
Definition to_schar (z : Z) : Z := (((z + 128) mod 256) - 128)%Z.

(** src/Base64.cc:130-132 the fragment obtained from one character.  Reading the
    table outside its 80 entries is undefined behaviour. *)
Definition decode_fragment (c : ascii) : res Z :=
  let val := to_schar (sval c - 43)%Z in
  if ((val <? 0) || (val >? decoding_size))%Z%bool then Ok (-1)%Z
  else match nth_error decoding (Z.to_nat val) with None => UB | Some f => Ok f end.

(** The four steps of src/Base64.cc:135-153, each with the pending [result]. *)
Inductive dphase := StepA | StepB (r : N) | StepC (r : N) | StepD (r : N).

(** src/Base64.cc:127-153 decoding: the bytes stored from here on.  A negative
    fragment repeats DECODE_VALUE (line 133); the end of input returns (line 129). *)
Fixpoint decode_loop (ph : dphase) (s : bytes) : res bytes :=
  match s with
  | [] => Ok []
  | c :: t =>
    do f <- decode_fragment c;
    if (f <? 0)%Z then decode_loop ph t else
    let f := Z.to_N f in
    match ph with
    | StepA => decode_loop (StepB (N.shiftl (N.land f 63) 2)) t
    | StepB r => do rest <- decode_loop (StepC (N.shiftl (N.land f 15) 4)) t;
                 Ok (bchr (N.lor r (N.shiftr (N.land f 48) 4)) :: rest)
    | StepC r => do rest <- decode_loop (StepD (N.shiftl (N.land f 3) 6)) t;
                 Ok (bchr (N.lor r (N.shiftr (N.land f 60) 2)) :: rest)
    | StepD r => do rest <- decode_loop StepA t;
                 Ok (bchr (N.lor r (N.land f 63)) :: rest)
    end
  end.

(** src/Base64.cc:119-155 Base64Decode: the bytes stored; the returned value is
    their number (mod 2^32). *)
Definition base64_decode (s : bytes) : res bytes := decode_loop StepA s.

(** src/Base64.cc:157-159 Base64DecodeSize, on 32 bits. *)
Definition base64_decode_size (len : N) : N := wrap32 (wrap32 (len * 3) / 4 + 1).
