(** Model of EmitterMemoryOutput (src/EmitterOutput.cc:80-97). *)
From Verif Require Import Base ParserInput.
Open Scope N_scope.

(** The caller's buffer ([mo_mem], of [length] bytes) and [*out_length]. *)
Record moutput := MOutput { mo_mem : bytes; mo_out : N }.

(** src/EmitterOutput.cc:80-86 the constructor.  The caller's counter is used as
    it is; without one the counter is an uninitialised member ([None]), whose first
    use is undefined behaviour. *)
Definition mo_new (mem : bytes) (out_len : option N) : res moutput :=
  match out_len with Some n => Ok (MOutput mem n) | None => UB end.

(** src/EmitterOutput.cc:88-95 Write; the sum of line 89 is 32-bit. *)
Definition mo_write (m : moutput) (data : bytes) : res moutput :=
  if llen (mo_mem m) <? wrap32 (mo_out m + llen data) then Throw LengthError
  else if llen (mo_mem m) <? mo_out m + llen data then UB
  else Ok (MOutput (buf_store (mo_mem m) (mo_out m) data) (wrap32 (mo_out m + llen data))).

(** A sequence of writes; on an exception the memory as it was then. *)
Fixpoint mo_writes (m : moutput) (ws : list bytes) : res (moutput * bool) :=
  match ws with
  | [] => Ok (m, true)
  | w :: t => match mo_write m w with
              | Ok m' => mo_writes m' t
              | Throw LengthError => Ok (m, false)
              | Throw e => Throw e
              | UB => UB | Abort => Abort | Fuel => Fuel
              end
  end.
