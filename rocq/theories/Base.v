(** Common vocabulary of the model: bytes, outcomes, exceptions.

    Nothing here models library code; the definitions fix how C++ results are
    represented.  *)
From Coq Require Export List ZArith NArith Lia Bool Ascii String.
From Coq Require Export ZifyBool ZifyNat ZifyN.
Export ListNotations.
Open Scope list_scope.

(** A byte is an [ascii]; a [std::string] / byte buffer is a list of bytes. *)
Notation byte := ascii (only parsing).
Notation bytes := (list ascii).

(** Literal helper: the bytes of a Coq string literal. *)
Definition s2b (s : string) : bytes := list_ascii_of_string s.

(** C++ exception classes that the modelled code throws
    (include/Variant/Exceptions.h:28-80 and <stdexcept>). *)
Inductive exn : Set :=
| KeyError | UnknownTypeError | UnexpectedTypeError | UnableToConvertError
| TypeNotIndexableError | NotNumericTypeError | BadPathError
| InvalidReferenceError | InvalidOperationError
| OutOfRange | LengthError | RuntimeError.

(** Outcome of running a piece of code.  [UB] is undefined behaviour, kept as a
    distinct outcome; [Abort] is std::terminate; [Fuel] says that a fuelled loop
    ran out of fuel. *)
Inductive res (A : Type) : Type :=
| Ok (a : A)
| Throw (e : exn)
| UB
| Abort
| Fuel.
Arguments Ok {A} a.
Arguments Throw {A} e.
Arguments UB {A}.
Arguments Abort {A}.
Arguments Fuel {A}.

Definition rbind {A B} (r : res A) (f : A -> res B) : res B :=
  match r with Ok a => f a | Throw e => Throw e | UB => UB | Abort => Abort | Fuel => Fuel end.

Declare Scope res_scope.
Delimit Scope res_scope with res.
Notation "'do' x <- r ; k" := (rbind r (fun x => k))
  (at level 200, x pattern, r at level 100, k at level 200, right associativity) : res_scope.
Open Scope res_scope.

Definition is_ok {A} (r : res A) : bool := match r with Ok _ => true | _ => false end.

(** Unsigned value of a byte and back (mod 256). *)
Definition bval (c : ascii) : N := N_of_ascii c.
Definition bchr (n : N) : ascii := ascii_of_N n.

(** [signed char] value of a byte. *)
Definition sval (c : ascii) : Z :=
  let z := Z.of_N (bval c) in if (z <? 128)%Z then z else (z - 256)%Z.

Lemma bval_lt c : (bval c < 256)%N.
Proof. destruct c as [[] [] [] [] [] [] [] []]; vm_compute; reflexivity. Qed.

Lemma bchr_bval c : bchr (bval c) = c.
Proof. apply ascii_N_embedding. Qed.

Lemma bval_bchr n : (n < 256)%N -> bval (bchr n) = n.
Proof. apply N_ascii_embedding. Qed.

Lemma bval_inj a b : bval a = bval b -> a = b.
Proof. intros H. rewrite <- (bchr_bval a), <- (bchr_bval b), H. reflexivity. Qed.

(** All 256 bytes, for finite sweeps lifted to universally quantified facts. *)
Definition all_bytes : list ascii := List.map (fun n => bchr (N.of_nat n)) (seq 0 256).

Lemma all_bytes_In c : In c all_bytes.
Proof.
  unfold all_bytes. apply in_map_iff. exists (N.to_nat (bval c)). split.
  - rewrite N2Nat.id. apply bchr_bval.
  - apply in_seq. pose proof (bval_lt c). lia.
Qed.

Lemma sweep (P : ascii -> bool) : forallb P all_bytes = true -> forall c, P c = true.
Proof. intros H c. rewrite forallb_forall in H. apply H, all_bytes_In. Qed.

Definition aeqb (a b : ascii) : bool := Ascii.eqb a b.
Lemma aeqb_eq a b : aeqb a b = true <-> a = b.
Proof. apply Ascii.eqb_eq. Qed.
Lemma aeqb_neq a b : aeqb a b = false <-> a <> b.
Proof. apply Ascii.eqb_neq. Qed.
Lemma aeqb_refl a : aeqb a a = true.
Proof. apply Ascii.eqb_refl. Qed.

Fixpoint beqb (a b : bytes) : bool :=
  match a, b with
  | [], [] => true
  | x :: a', y :: b' => aeqb x y && beqb a' b'
  | _, _ => false
  end.
Lemma beqb_eq a b : beqb a b = true <-> a = b.
Proof.
  revert b; induction a as [|x a IH]; intros [|y b]; simpl; split; intros H;
    try reflexivity; try discriminate.
  - apply andb_true_iff in H as [H1 H2]. apply aeqb_eq in H1. apply IH in H2. congruence.
  - injection H as -> ->. rewrite aeqb_refl. simpl. apply IH. reflexivity.
Qed.
Lemma beqb_refl a : beqb a a = true.
Proof. apply beqb_eq. reflexivity. Qed.
Lemma beqb_neq a b : beqb a b = false <-> a <> b.
Proof. rewrite <- beqb_eq. destruct (beqb a b); split; congruence. Qed.
Lemma bytes_eq_dec (a b : bytes) : {a = b} + {a <> b}.
Proof. destruct (beqb a b) eqn:E; [left; apply beqb_eq, E | right; apply beqb_neq, E]. Defined.

(** Fixed-width wrap-around. *)
Definition wrap32 (n : N) : N := (n mod 2^32)%N.
Definition wrap64 (n : N) : N := (n mod 2^64)%N.

(** C [isspace] in the "C" locale. *)
Definition is_space (c : ascii) : bool :=
  let n := bval c in ((9 <=? n) && (n <=? 13) || (n =? 32))%N.

(** ASCII decimal digits. *)
Definition is_digit (c : ascii) : bool :=
  let n := bval c in ((48 <=? n) && (n <=? 57))%N.
Definition digit_val (c : ascii) : N := (bval c - 48)%N.
Definition digit_chr (n : N) : ascii := bchr (48 + n)%N.

Lemma digit_chr_is_digit n : (n < 10)%N -> is_digit (digit_chr n) = true.
Proof.
  intros H. unfold is_digit, digit_chr. rewrite bval_bchr by lia. lia.
Qed.
Lemma digit_val_chr n : (n < 10)%N -> digit_val (digit_chr n) = n.
Proof. intros H. unfold digit_val, digit_chr. rewrite bval_bchr by lia. lia. Qed.
