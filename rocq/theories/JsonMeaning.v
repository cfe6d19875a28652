(** Which Variants a JSON document may be read as (specification side). *)
From Verif Require Import Base CNum Float FloatText Value JsonGrammar JSONDriver.
Open Scope N_scope.

Definition int_val (v : value) : option Z :=
  match v with VInt z => Some z | VUns n => Some (Z.of_N n) | _ => None end.

(** RFC 8259 leaves duplicate names to the implementation; here the last one counts. *)
Fixpoint last_val (k : bytes) (m : list (bytes * jtree)) : option jtree :=
  match m with
  | [] => None
  | (k', t) :: r => match last_val k r with Some x => Some x | None => if beqb k k' then Some t else None end
  end.

(** A number with fraction or exponent is read as the nearest double ([dec_to_d], which
    FloatTextProofs.dec_to_d_correct relates to the real number). *)
Inductive denotes : jtree -> value -> Prop :=
| DNul : denotes TNul VNull
| DBool b : denotes (TBool b) (VBool b)
| DInt (neg : bool) n v : int_val v = Some (if neg then - Z.of_N n else Z.of_N n)%Z -> denotes (TInt neg n) v
| DDec neg D E : denotes (TDec neg D E) (VFlt (ld_of_d (dec_to_d neg D E)))
| DStr s : denotes (TStr s) (VStr s)
| DArr l vs : Forall2 denotes l vs -> denotes (TArr l) (VList vs)
| DObj m ms : msorted ms ->
    (forall k t, last_val k m = Some t -> exists v, mget k ms = Some v /\ denotes t v) ->
    (forall k, last_val k m = None -> mget k ms = None) -> denotes (TObj m) (VMap ms).

(** No integer outside the 64-bit range, no string value that begins with the mark of a
    blob. *)
Fixpoint plain_tree (t : jtree) : Prop :=
  match t with
  | TNul | TBool _ | TDec _ _ _ => True
  | TInt true n => n <= 2^63
  | TInt false n => n < 2^64
  | TStr s => firstn 5 s <> blob_tag
  | TArr l => (fix go l := match l with [] => True | x :: r => plain_tree x /\ go r end) l
  | TObj m => (fix go m := match m with [] => True | (k, x) :: r => plain_tree x /\ go r end) m
  end.
