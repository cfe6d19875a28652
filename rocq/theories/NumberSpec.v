(** What a numeric Variant means mathematically: specification, independent of the
    model in Numeric.v. *)
From Verif Require Import Base Float Value.
From Coq Require Import Reals Lra.
From Flocq Require Import Core IEEE754.BinarySingleNaN.
Open Scope R_scope.

(** Real numbers with the two infinities. *)
Inductive ext := NegInf | Fin (r : R) | PosInf.

Definition ext_lt (a b : ext) : Prop :=
  match a, b with
  | NegInf, NegInf => False
  | NegInf, _ => True
  | Fin x, Fin y => x < y
  | Fin _, PosInf => True
  | _, _ => False
  end.

(** The number a Variant holds; none for NaN and for values that are not numbers. *)
Definition num_val (v : value) : option ext :=
  match v with
  | VInt z => Some (Fin (IZR z))
  | VUns n => Some (Fin (IZR (Z.of_N n)))
  | VFlt S754_nan => None
  | VFlt (S754_infinity true) => Some NegInf
  | VFlt (S754_infinity false) => Some PosInf
  | VFlt x => Some (Fin (SF2R radix2 x))
  | _ => None
  end.

Lemma ext_lt_irrefl a : ~ ext_lt a a.
Proof. destruct a; cbn; auto. lra. Qed.

Lemma ext_lt_trans a b c : ext_lt a b -> ext_lt b c -> ext_lt a c.
Proof. destruct a, b, c; cbn; auto; try tauto. lra. Qed.

Lemma ext_trichotomy a b : ext_lt a b \/ a = b \/ ext_lt b a.
Proof.
  destruct a as [|x|], b as [|y|]; cbn; auto.
  destruct (Rtotal_order x y) as [H|[H|H]]; auto. right. left. congruence.
Qed.
