(** Model of src/ParseBool.cc. *)
From Verif Require Import Base CNum.
Open Scope N_scope.

(** C [tolower] in the "C" locale. *)
Definition to_lower (c : ascii) : ascii :=
  let n := bval c in if ((65 <=? n) && (n <=? 90))%bool then bchr (n + 32) else c.

(** src/ParseBool.cc:48-50 the comparison loop: what is left of the text after
    matching as much as possible of [cmp]. *)
Fixpoint match_tail (cmp s : bytes) : bytes :=
  match cmp, s with
  | k :: cmp', c :: s' => if aeqb (to_lower c) k then match_tail cmp' s' else s
  | _, _ => s
  end.

(** "cur == end" after skipping blanks (src/ParseBool.cc:42-43, 51-52). *)
Definition at_end_after_space (s : bytes) : bool :=
  match skip_space s with [] => true | _ => false end.

(** src/ParseBool.cc:24-54 ParseBool.  [isspace] on bytes above 127 is false
    (glibc, "C" locale). *)
Definition parse_bool (s : bytes) : bool :=
  match skip_space s with
  | [] => true
  | c :: t =>
    if aeqb (to_lower c) "n" then negb (at_end_after_space (match_tail (s2b "o") t))
    else if aeqb (to_lower c) "f" then negb (at_end_after_space (match_tail (s2b "alse") t))
    else if aeqb c "0" then negb (at_end_after_space (snd (span (fun x => aeqb x "0") t)))
    else true
  end.
