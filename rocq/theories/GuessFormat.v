(** Model of src/GuessFormat.cc on the two kinds of parser input. *)
From Verif Require Import Base ParserInput.
Open Scope N_scope.

(** A ParserInput object (include/Variant/ParserInput.h:30-41). *)
Inductive pinput := InMem (m : minput) | InStream (s : sinput).

(** The virtual GetPtr.  The reading loop of the stream input needs at most three
    rounds of fuel (ParserInputProofs.fill_loop_spec). *)
Definition in_getptr (i : pinput) (len : N) : res (ptr_result * pinput) :=
  match i with
  | InMem m => do r <- mi_getptr m; Ok (r, InMem m)
  | InStream s => do (r, s') <- si_getptr 3 s len; Ok (r, InStream s')
  end.

(** Reading [ptr[k]] where [ptr] was returned by GetPtr: any byte of the
    underlying storage, undefined behaviour outside it. *)
Definition in_peek (i : pinput) (p k : N) : res ascii :=
  let buf := match i with InMem m => mi_data m | InStream s => si_buf s end in
  match nth_error buf (N.to_nat (p + k)) with Some c => Ok c | None => UB end.

(** include/Variant/VariantDefines.h SerializeType, the three results possible here. *)
Inductive format := FXml | FYaml | FJson.

(** The build configuration (ENABLE_YAML, ENABLE_XML). *)
Record config := Config { enable_yaml : bool; enable_xml : bool }.

(** src/GuessFormat.cc:21-49 the scanning loop; [p] = ptr, [len], [i] as in the code. *)
Fixpoint guess_loop (fuel : nat) (cfg : config) (inp : pinput) (p len i : N) : res (format * pinput) :=
  match fuel with
  | O => Fuel
  | S f =>
    do (p, len, inp) <-
      (if len <=? i then
         do (r, inp') <- in_getptr inp (wrap32 (i + 1));
         match fst r with None => Throw RuntimeError | Some p' => Ok (p', snd r, inp') end
       else Ok (p, len, inp));
    do c <- in_peek inp p i;
    if negb (is_space c) then
      if aeqb c "<" then (if enable_xml cfg then Ok (FXml, inp) else Throw RuntimeError)
      else Ok (if enable_yaml cfg then FYaml else FJson, inp)
    else guess_loop f cfg inp p len (wrap32 (i + 1))
  end.

(** src/GuessFormat.cc:9-51 GuessFormat. *)
Definition guess_format (fuel : nat) (cfg : config) (inp : pinput) : res (format * pinput) :=
  do (r, inp) <- in_getptr inp 0;
  match fst r with
  | None => if enable_yaml cfg then Ok (FYaml, inp) else Throw RuntimeError
  | Some p => guess_loop fuel cfg inp p (snd r) 0
  end.
