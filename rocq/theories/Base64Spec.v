(** Independent specification of base64 (RFC 4648 section 4) in terms of bits. *)
From Verif Require Import Base.

Definition alphabet : bytes := s2b "ABCDEFGHIJKLMNOPQRSTUVWXYZabcdefghijklmnopqrstuvwxyz0123456789+/".

(** Bits of a byte, most significant first. *)
Definition bits8 (c : ascii) : list bool :=
  let 'Ascii b0 b1 b2 b3 b4 b5 b6 b7 := c in [b7; b6; b5; b4; b3; b2; b1; b0].

(** Number written by a list of bits, most significant first. *)
Definition bits_value (l : list bool) : nat := fold_left (fun (a : nat) (b : bool) => 2 * a + (if b then 1 else 0)) l 0.

Definition alpha (l : list bool) : ascii := nth (bits_value l) alphabet "="%char.

(** Split into groups of six bits, the last one padded with zero bits. *)
Fixpoint sextets (l : list bool) : list (list bool) :=
  match l with
  | a :: b :: c :: d :: e :: f :: t => [a; b; c; d; e; f] :: sextets t
  | [] => []
  | _ => [firstn 6 (l ++ [false; false; false; false; false])]
  end.

Definition padding (n : nat) : bytes :=
  match Nat.modulo n 3 with 1 => ["="; "="]%char | 2 => ["="]%char | _ => [] end.

(** The encoding of [data] without line breaks. *)
Definition rfc4648 (data : bytes) : bytes :=
  map alpha (sextets (flat_map bits8 data)) ++ padding (List.length data).

(** Position of a character in the alphabet, as six bits. *)
Fixpoint find_index (c : ascii) (l : bytes) : option nat :=
  match l with
  | [] => None
  | x :: t => if aeqb c x then Some 0 else option_map S (find_index c t)
  end.
Definition bits6 (n : nat) : list bool :=
  map (fun i => Nat.testbit n i) [5; 4; 3; 2; 1; 0].
Definition char_bits (c : ascii) : list bool :=
  match find_index c alphabet with Some n => bits6 n | None => [] end.

(** Whole bytes of a bit string (an incomplete last byte is dropped). *)
Fixpoint whole_bytes (l : list bool) : bytes :=
  match l with
  | b7 :: b6 :: b5 :: b4 :: b3 :: b2 :: b1 :: b0 :: t => Ascii b0 b1 b2 b3 b4 b5 b6 b7 :: whole_bytes t
  | _ => []
  end.

(** The meaning of a base64 text: characters outside the alphabet count for nothing. *)
Definition base64_meaning (s : bytes) : bytes := whole_bytes (flat_map char_bits s).

Definition in_alphabet (c : ascii) : Prop := In c alphabet.
