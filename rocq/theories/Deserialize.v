(** The JSON driver on concrete inputs: Deserialize of src/VariantParsing.cc. *)
From Verif Require Import Base Value ParserInput GuessFormat JSONDriver.
Open Scope N_scope.

(** The bytes designated by GetPtr with length 0 (src/JSONParser.cc:136-143, which
    treats a null pointer and length zero alike). *)
Definition in_view (i : pinput) : res (option bytes * pinput) :=
  do (r, i1) <- in_getptr i 0;
  match fst r with
  | None => Ok (None, i1)
  | Some p =>
      let buf := match i1 with InMem m => mi_data m | InStream s => si_buf s end in
      if snd r =? 0 then Ok (None, i1)
      else if llen buf <? p + snd r then UB
      else Ok (Some (take (snd r) (drop p buf)), i1)
  end.

(** The virtual Release (src/ParserInput.cc:78-88, 109-111). *)
Definition in_release (i : pinput) (n : N) : res pinput :=
  match i with
  | InMem m => Ok (InMem (mi_release m n))
  | InStream s => do s1 <- si_release s n; Ok (InStream s1)
  end.

(** An input that hands over one chunk after the other, as an overriding ParserInput may
    (include/Variant/ParserInput.h:30-41). *)
Definition chunks_view (l : list bytes) : res (option bytes * list bytes) :=
  Ok (match l with [] => None | c :: _ => Some c end, l).
Definition chunks_release (l : list bytes) (n : N) : res (list bytes) :=
  Ok (match l with
      | [] => []
      | c :: t => match drop n c with [] => t | r => r :: t end
      end).

(** src/VariantParsing.cc:220-240 Deserialize / DeserializeFile for SERIALIZE_JSON. *)
Definition parse_json (fuel : nat) (i : pinput) := parse_variant pinput in_view in_release fuel i.
Definition parse_json_chunks (fuel : nat) (l : list bytes) := parse_variant (list bytes) chunks_view chunks_release fuel l.

(** src/VariantParsing.cc:216-218, src/Parser.cc:58-60: the length is an unsigned. *)
Definition deserialize_json (fuel : nat) (text : bytes) : res value :=
  do (v, d, i) <- parse_json fuel (InMem (MInput (take (wrap32 (llen text)) text) 0));
  Ok v.
