(** Property C06: path text round trip. *)
From Verif Require Import Base CNum Path PathProofs.
Open Scope N_scope.

(** Every path of 32-bit indices and arbitrary byte-string keys survives printing
    and parsing, except that a path must not end in an empty key
    ("A '/' at the end of the path is ignored", include/Variant/Path.h:33). *)
Theorem C06_path_roundtrip_partial : forall p : list pelem,
  Forall elem_ok p -> last p (PIdx 0) <> PKey [] ->
  parse_path (path_string p) = Ok p.
Proof. exact path_roundtrip_lemma. Qed.
Print Assumptions C06_path_roundtrip_partial.

Example C06_roundtrip_case :
  let p := [PKey (s2b "a/b[c]\d"); PIdx 4294967295; PIdx 0; PKey []; PKey (s2b "x ]")] in
  Forall elem_ok p /\ last p (PIdx 0) <> PKey [] /\
  path_string p = s2b "/a\/b\[c\]\\d[4294967295][0]//x \]" /\
  parse_path (path_string p) = Ok p.
Proof.
  cbv zeta. split; [|split; [vm_compute; discriminate|split; vm_compute; reflexivity]].
  repeat (apply Forall_cons; [vm_compute; solve [reflexivity | exact I]|]). apply Forall_nil.
Qed.

(** Without that side condition the claim is false: the path of the single empty
    key prints like the empty path. *)
Theorem C06_path_roundtrip_refuted : exists p : list pelem,
  Forall elem_ok p /\ parse_path (path_string p) <> Ok p.
Proof. exists [PKey []]. split; [apply Forall_cons; [exact I|apply Forall_nil] | vm_compute; discriminate]. Qed.
Print Assumptions C06_path_roundtrip_refuted.

(** Distinct paths (not ending in an empty key) have distinct texts. *)
Theorem C06_path_string_injective_partial : forall p q : list pelem,
  Forall elem_ok p -> Forall elem_ok q ->
  last p (PIdx 0) <> PKey [] -> last q (PIdx 0) <> PKey [] ->
  path_string p = path_string q -> p = q.
Proof.
  intros p q Hp Hq Lp Lq E.
  pose proof (path_roundtrip_lemma p Hp Lp) as R1.
  pose proof (path_roundtrip_lemma q Hq Lq) as R2.
  rewrite E, R2 in R1. congruence.
Qed.
Print Assumptions C06_path_string_injective_partial.

(** Any text parses, or is rejected with the documented "not a number" exception;
    all indices obtained fit 32 bits. *)
Theorem C06_parse_total : forall t : bytes,
  (exists p, parse_path t = Ok p /\ Forall elem_ok p) \/ parse_path t = Throw RuntimeError.
Proof.
  intros t. destruct (parse_path_total t) as [[p H]|H]; [left|right; exact H].
  exists p. split; [exact H | exact (parse_path_ok t p H)].
Qed.
Print Assumptions C06_parse_total.

(** The examples of include/Variant/Path.h:40-60. *)
Example C06_doc_examples :
  parse_path (s2b "/") = Ok [] /\
  parse_path (s2b "/key1[3]/blork") = Ok [PKey (s2b "key1"); PIdx 3; PKey (s2b "blork")] /\
  parse_path (s2b "/key2/sub\/key2") = Ok [PKey (s2b "key2"); PKey (s2b "sub/key2")] /\
  parse_path (s2b "/a[x]") = Throw RuntimeError.
Proof. split; [|split; [|split]]; vm_compute; reflexivity. Qed.

(** An index of 2^32 is silently taken as 0 (src/Path.cc:28): two different texts
    address the same element. *)
Example C06_index_truncated : parse_path (s2b "[4294967296]") = Ok [PIdx 0].
Proof. vm_compute. reflexivity. Qed.
