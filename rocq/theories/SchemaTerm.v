(** Schema validation ends, whatever the schema (src/Schema.cc). *)
From Verif Require Import Base CNum Float Value Convert Numeric ParserInput Emit Schema JSONFlat Blob P_Blob.
From Coq Require Import SpecFloat FunctionalExtensionality.
Open Scope N_scope.

Lemma next_nf r k : nf r -> (forall c, nf (k c)) -> nf (next r k).
Proof. intros R K. unfold next. apply rbind_nf; [exact R|]. intros [c|c]; [apply K|discriminate]. Qed.
Lemma each_nf {A} (f : A -> sctx -> res flow) l : (forall x c, nf (f x c)) -> forall c, nf (each f l c).
Proof. intros F. induction l; intros c; cbn [each]; [discriminate|]. apply next_nf; auto. Qed.
Lemma as_ld_nf v : nf (as_ld v).
Proof. unfold as_ld. destruct v; try discriminate. unfold conv. destruct (istream_ld s); discriminate. Qed.
Lemma f_to_uns_nf x : nf (f_to_uns x).
Proof. unfold f_to_uns. repeat match goal with |- nf (match ?x with _ => _ end) => destruct x end; discriminate. Qed.
Lemma as_uns_nf v : nf (as_uns v).
Proof. unfold as_uns. destruct v; try discriminate; [apply f_to_uns_nf|]. unfold conv. destruct (istream_ull s); discriminate. Qed.
Lemma as_bool_nf v : nf (as_bool v).
Proof. destruct v; discriminate. Qed.
Lemma blob_compare_nf x y : nf (blob_compare x y).
Proof. rewrite blob_compare_memcmp. discriminate. Qed.
Lemma num_compare_nf a b : nf (num_compare a b).
Proof. unfold num_compare. destruct (comparable a b); [|discriminate]. apply rbind_nf; [apply as_ld_nf|]. intros x. apply rbind_nf; [apply as_ld_nf|discriminate]. Qed.
Lemma vcompare_nf a : forall b, nf (vcompare a b).
Proof.
  induction a as [|b0| | | | |l IH|m IH|x] using value_ind'; intros b; cbn [vcompare]; try discriminate; try apply num_compare_nf.
  - destruct b as [| | | | | |r| |]; try discriminate. destruct (_ =? _)%nat; [|discriminate]. apply rbind_nf; [|discriminate].
    revert r. induction IH as [|x l Hx _ IH]; intros [|y r]; try discriminate. apply rbind_nf; [apply Hx|]. intros c. destruct (c =? 0)%Z; [apply IH|discriminate].
  - destruct b as [| | | | | | |r|]; try discriminate. destruct (_ =? _)%nat; [|discriminate]. apply rbind_nf; [|discriminate].
    revert r. induction IH as [|[k x] l Hx _ IH]; intros [|[k' y] r]; try discriminate. destruct (beqb k k'); [|discriminate].
    apply rbind_nf; [apply Hx|]. intros c. destruct (c =? 0)%Z; [apply IH|discriminate].
  - destruct b; try discriminate. apply blob_compare_nf.
Qed.
Lemma v_eq_nf a b : nf (v_eq a b). Proof. apply rbind_nf; [apply vcompare_nf|discriminate]. Qed.
Lemma v_ne_nf a b : nf (v_ne a b). Proof. apply rbind_nf; [apply vcompare_nf|discriminate]. Qed.
Lemma v_lt_nf a b : nf (v_lt a b). Proof. apply rbind_nf; [apply vcompare_nf|discriminate]. Qed.
Lemma v_gt_nf a b : nf (v_gt a b). Proof. apply rbind_nf; [apply vcompare_nf|discriminate]. Qed.
Lemma as_int_nf a : nf (as_int a).
Proof.
  destruct a; try discriminate; cbn [as_int]; unfold conv, f_to_int;
    repeat match goal with |- nf (match ?x with _ => _ end) => destruct x end; discriminate.
Qed.
Lemma v_rem_nf a b : nf (v_arith OpRem a b).
Proof.
  unfold v_arith. destruct (is_num _); [|discriminate]. unfold numeric_operation. apply rbind_nf.
  - unfold numeric_upcast. destruct (type_of a), (type_of b); discriminate.
  - intros t. destruct t; try discriminate.
    + apply rbind_nf; [apply as_int_nf|intros x]. apply rbind_nf; [apply as_int_nf|intros y]. apply rbind_nf; [|discriminate].
      cbn [int_op]. destruct (_ =? _)%Z; [discriminate|]. destruct (in_i64 _); discriminate.
    + apply rbind_nf; [apply as_uns_nf|intros x]. apply rbind_nf; [apply as_uns_nf|intros y]. apply rbind_nf; [|discriminate].
      cbn [uns_op]. destruct (_ =? _); discriminate.
    + apply rbind_nf; [apply as_ld_nf|intros x]. apply rbind_nf; [apply as_ld_nf|discriminate].
Qed.

Ltac nf_step :=
  match goal with
  | |- nf (Ok _) => discriminate
  | |- nf (add_error _) => discriminate
  | |- nf (add_schema_error _) => discriminate
  | |- nf (next _ _) => apply next_nf; [|intros]
  | |- nf (each _ _ _) => apply each_nf; intros
  | |- nf (v_eq _ _) => apply v_eq_nf
  | |- nf (v_ne _ _) => apply v_ne_nf
  | |- nf (v_lt _ _) => apply v_lt_nf
  | |- nf (v_gt _ _) => apply v_gt_nf
  | |- nf (v_arith OpRem _ _) => apply v_rem_nf
  | |- nf (as_string _) => apply as_string_nf
  | |- nf (as_uns _) => apply as_uns_nf
  | |- nf (as_ld _) => apply as_ld_nf
  | |- nf (as_bool _) => apply as_bool_nf
  | |- nf (rbind _ _) => apply rbind_nf; [|intros]
  | H : forall l c, nf (?f l c) |- nf (?f _ _) => apply H
  | H : forall s d c, nf (?f s d c) |- nf (?f _ _ _) => apply H
  | |- nf (match ?x with _ => _ end) => destruct x
  | |- nf (let '(_, _) := ?x in _) => destruct x
  end.

Lemma texts_nf l : nf (texts l). Proof. induction l; cbn [texts]; repeat nf_step. exact IHl. Qed.
Lemma type_loop_nf all l d : forall c, nf (type_loop all l d c).
Proof. induction l; intros c; cbn [type_loop]; cbv zeta; [apply rbind_nf; [apply texts_nf|discriminate]|]. repeat (apply IHl || nf_step). Qed.
Lemma enum_loop_nf l d : nf (enum_loop l d).
Proof. induction l; cbn [enum_loop]; repeat (apply IHl || nf_step). Qed.
Lemma unique_row_nf x l : nf (unique_row x l).
Proof. induction l; cbn [unique_row]; repeat (apply IHl || nf_step). Qed.
Lemma unique_nf l : nf (unique l).
Proof. induction l; cbn [unique]; repeat (apply IHl || apply unique_row_nf || nf_step). Qed.
Lemma size_nf lo hi n m c : nf (validate_size lo hi n m c).
Proof. unfold validate_size. repeat nf_step. Qed.

Section Ends.
  Variable rx : bytes -> option (bytes -> bool).
  Variable get_schema : bytes -> res value.
  Hypothesis GET : forall u, nf (get_schema u).

  Section Sub.
    Variable sub : value -> value -> sctx -> res flow.
    Hypothesis SUB : forall s d c, nf (sub s d c).

    Lemma items_nf m l : forall items c, nf (items_loop sub m items l c).
    Proof. induction l; intros items c; cbn [items_loop]; repeat (apply IHl || apply SUB || nf_step). Qed.
    Lemma any_nf l d : forall c, nf (any_loop sub l d c).
    Proof. induction l; intros c; cbn [any_loop]; repeat (apply IHl || apply SUB || nf_step). Qed.
    Lemma one_nf l d : forall n c, nf (one_loop sub l n d c).
    Proof. induction l; intros n c; cbn [one_loop]; cbv zeta; repeat (apply IHl || apply SUB || nf_step). Qed.
    Lemma validate_map_nf m d c : nf (validate_map rx get_schema sub m d c).
    Proof.
      unfold validate_map, validate_type, validate_enum, validate_numeric, validate_multiple, validate_minmax, validate_bound, validate_string, validate_pattern, validate_format,
        validate_array, validate_unique, validate_items, validate_object, validate_required, validate_properties, validate_dependencies, need,
        validate_combinations, validate_all, validate_any, validate_one, validate_not; cbv zeta.
      repeat (apply SUB || apply GET || apply items_nf || apply any_nf || apply one_nf || apply type_loop_nf || apply enum_loop_nf || apply unique_nf || apply size_nf || nf_step).
    Qed.
  End Sub.

  Lemma validate_nf fuel : forall depth s d c, RECURSION_LIMIT < depth + N.of_nat fuel -> (depth <= RECURSION_LIMIT)%N -> nf (validate rx get_schema fuel depth s d c).
  Proof.
    induction fuel as [|fuel IH]; intros depth s d c F L; [lia|]. cbn [validate]. destruct (RECURSION_LIMIT <? depth + 1) eqn:E; [discriminate|].
    destruct s; try discriminate. apply validate_map_nf. intros s d' c'. apply IH; lia.
  Qed.

  Lemma validate_more fuel : forall depth, RECURSION_LIMIT < depth + N.of_nat fuel -> (depth <= RECURSION_LIMIT)%N ->
    validate rx get_schema (S fuel) depth = validate rx get_schema fuel depth.
  Proof.
    induction fuel as [|fuel IH]; intros depth F L; [lia|].
    apply functional_extensionality; intros s. apply functional_extensionality; intros d. apply functional_extensionality; intros c.
    change (validate rx get_schema (S (S fuel)) depth s d c) with
      (if RECURSION_LIMIT <? depth + 1 then Ok (Stop (SCtx (c_err c) true))
       else match s with VMap m => validate_map rx get_schema (validate rx get_schema (S fuel) (depth + 1)) m d c | _ => Ok (Go c) end).
    change (validate rx get_schema (S fuel) depth s d c) with
      (if RECURSION_LIMIT <? depth + 1 then Ok (Stop (SCtx (c_err c) true))
       else match s with VMap m => validate_map rx get_schema (validate rx get_schema fuel (depth + 1)) m d c | _ => Ok (Go c) end).
    destruct (RECURSION_LIMIT <? depth + 1) eqn:E; [reflexivity|]. rewrite IH by lia. reflexivity.
  Qed.
End Ends.
