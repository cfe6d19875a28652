(** C26 and C27: what schema validation reports, and that it ends. *)
From Verif Require Import Base CNum Float Value Convert Numeric NumberSpec NumericProofs P_Equal ParserInput Emit Deserialize JSONFlat Regex Schema SchemaSem SchemaMeaning SchemaProofs SchemaCheck SchemaFloat SchemaTerm SchemaFormat EventBufferProofs.
From Coq Require Import SpecFloat Reals Lra.
From Flocq Require Import Core IEEE754.BinarySingleNaN.
Open Scope N_scope.

(** ** C26 *)

(** For every schema that can be used on the data with at most 100 schemas one inside the other
    (references followed), validation reports no error exactly when the data satisfies the
    schema.  [H] is any predicate that obeys the meaning of the keywords ([means_schemas]);
    [rx] is any regular expression library, [get_schema] any resolution of references, cyclic or
    not.  Missing: "multipleOf" with fractions, lengths of texts outside ASCII, "format"
    (refuted below). *)
Theorem C26_validation_partial : forall (rx : bytes -> option (bytes -> bool)) (get_schema : bytes -> res value) (H : value -> value -> Prop),
  means_schemas rx get_schema H -> forall (n : nat) (s d : value), usable rx get_schema n s d -> (n <= 100)%nat ->
  exists c, schema_validate rx get_schema 101 s d = Ok c /\ (failed c = false <-> H s d).
Proof.
  intros rx get_schema H M n s d W L. unfold schema_validate.
  destruct (validate_spec rx get_schema H M n s d 101 0 no_errors W) as [[-> Q]|(c & -> & F & Q)]; [lia|unfold RECURSION_LIMIT; lia| |].
  - exists no_errors. split; [reflexivity|]. split; [auto|reflexivity].
  - exists c. split; [reflexivity|]. rewrite F. split; [discriminate|contradiction].
Qed.
Print Assumptions C26_validation_partial.

(** The keywords give the schemas that can be used one meaning, and only one. *)
Theorem C26_meaning_unique : forall (rx : bytes -> option (bytes -> bool)) (get_schema : bytes -> res value),
  exists H, means_schemas rx get_schema H /\
  forall G, means_schemas rx get_schema G -> forall n s d, usable rx get_schema n s d -> (G s d <-> H s d).
Proof.
  intros rx get_schema. exists (satisfies rx get_schema). split; [apply satisfies_means|].
  intros G MG n s d W. exact (means_unique rx get_schema G _ MG (satisfies_means rx get_schema) n s d W).
Qed.
Print Assumptions C26_meaning_unique.

(** A linked list: references to the schema itself. *)
Definition jtext (s : String.string) : value := match deserialize_json 1000 (s2b s) with Ok v => v | _ => VNull end.
Definition linked : value := jtext "{""type"":""object"",""required"":[""v""],""properties"":{""v"":{""type"":[""integer"",""null""],""minimum"":0},""next"":{""$ref"":""#""}},""additionalProperties"":false}".
Definition to_linked (u : bytes) : res value := if beqb u (s2b "#") then Ok linked else Throw RuntimeError.
Definition two_links : value := jtext "{""next"":{""v"":7},""v"":null}".
Definition bad_link : value := jtext "{""next"":{""v"":-7},""v"":null}".

Example C26_linked :
  usable (fun _ => None) to_linked 5 linked two_links /\ usable (fun _ => None) to_linked 5 linked bad_link /\
  schema_validate (fun _ => None) to_linked 101 linked two_links = Ok no_errors /\
  schema_validate (fun _ => None) to_linked 101 linked bad_link = Ok (SCtx true false).
Proof.
  split; [apply usableb_ok; vm_compute; reflexivity|]. split; [apply usableb_ok; vm_compute; reflexivity|].
  split; vm_compute; reflexivity.
Qed.

(** All the keywords; "^x" is a regular expression. *)
Definition begins_x (p : bytes) : option (bytes -> bool) :=
  if beqb p (s2b "^x") then Some (fun s => match s with c :: _ => aeqb c "x" | [] => false end) else None.
Definition every_keyword : value := jtext
  "{""minProperties"":2,""maxProperties"":9,""required"":[""l""],""patternProperties"":{""^x"":{""type"":""string"",""minLength"":2,""maxLength"":3,""pattern"":""^x""}},""properties"":{""l"":{""items"":[{""enum"":[1,[""a"",null]]},{""multipleOf"":2}],""additionalItems"":{""not"":{""type"":""null""}},""minItems"":1,""maxItems"":4,""uniqueItems"":true}},""additionalProperties"":{""oneOf"":[{""type"":""integer""},{""minimum"":2,""exclusiveMinimum"":true,""maximum"":8}],""anyOf"":[{},{}],""allOf"":[{}]},""dependencies"":{""l"":[""x1""],""z"":{""required"":[""l""]}}}".
Definition right_data : value := jtext "{""l"":[[""a"",null],4,5],""x1"":""xy"",""z"":2}".
Example C26_every_keyword :
  usable begins_x (fun _ => Throw RuntimeError) 4 every_keyword right_data /\
  schema_validate begins_x (fun _ => Throw RuntimeError) 101 every_keyword right_data = Ok no_errors /\
  List.map (fun t => match schema_validate begins_x (fun _ => Throw RuntimeError) 101 every_keyword (jtext t) with Ok c => failed c | _ => false end)
    ["{""l"":[1,3],""x1"":""xy""}"; "{""l"":[1,4,4],""x1"":""xy""}"; "{""l"":[1,4,null],""x1"":""xy""}"; "{""l"":[2],""x1"":""xy""}"; "{""l"":[1],""x1"":""xyzt""}";
     "{""l"":[1],""x1"":""yx""}"; "{""l"":[1],""z"":2}"; "{""x1"":""xy"",""y"":1}"; "{""l"":[1],""x1"":""xy"",""z"":3}"; "{""l"":[1],""x1"":""xy"",""z"":9.5}"]%string
  = [true; true; true; true; true; true; true; true; true; true].
Proof. split; [apply usableb_ok; vm_compute; reflexivity|]. split; vm_compute; reflexivity. Qed.

(** *** Fractions in "multipleOf" *)

Lemma only_multiple rx get_schema b d : number d = true ->
  schema_validate rx get_schema 101 (VMap [(s2b "multipleOf", b)]) d =
  (do o <- validate_multiple [(s2b "multipleOf", b)] d no_errors; Ok (match o with Go c => c | Stop c => c end)).
Proof.
  intros N. unfold schema_validate. change (validate rx get_schema 101 0 (VMap [(s2b "multipleOf", b)]) d no_errors) with
    (validate_map rx get_schema (validate rx get_schema 100 1) [(s2b "multipleOf", b)] d no_errors).
  unfold validate_map. change (key "$ref" [(s2b "multipleOf", b)]) with (@None value). cbn [next rbind].
  unfold validate_type. change (key "type" [(s2b "multipleOf", b)]) with (@None value). cbn [next rbind].
  unfold validate_enum. change (key "enum" [(s2b "multipleOf", b)]) with (@None value). cbn [next rbind].
  unfold validate_numeric. rewrite N.
  destruct (validate_multiple _ d no_errors) as [[c|c]| | | |]; cbn [next rbind]; try reflexivity.
  unfold validate_minmax, validate_bound. change (key "minimum" [(s2b "multipleOf", b)]) with (@None value). change (key "maximum" [(s2b "multipleOf", b)]) with (@None value). cbn [next rbind].
  destruct d; try discriminate N; reflexivity.
Qed.
(** With a fraction on either side, an exact multiple is never refused, and a number that is not
    negative and not within 2^-56 of any multiple always is. *)
Theorem C26_fractions_partial : forall (rx : bytes -> option (bytes -> bool)) (get_schema : bytes -> res value) (b d : value) (x y : R),
  vok b -> vok d -> num_val b = Some (Fin y) -> num_val d = Some (Fin x) -> (0 < y)%R -> (exists f, b = VFlt f) \/ (exists f, d = VFlt f) ->
  ((exists k, x = IZR k * y)%R -> schema_validate rx get_schema 101 (VMap [(s2b "multipleOf", b)]) d = Ok no_errors) /\
  ((0 <= x)%R -> (forall k, bpow radix2 (-56) <= Rabs (x - IZR k * y))%R -> schema_validate rx get_schema 101 (VMap [(s2b "multipleOf", b)]) d = Ok (SCtx true false)).
Proof.
  intros rx get_schema b d x y Vb Vd Nb Nd Y F. assert (N : number d = true) by (apply (number_num d _ Nd)). rewrite (only_multiple rx get_schema b d N). split.
  - intros [k X]. rewrite (exact_multiple [(s2b "multipleOf", b)] b d x y no_errors eq_refl Vb Vd Nb Nd Y F k X). reflexivity.
  - intros P D. rewrite (far_multiple [(s2b "multipleOf", b)] b d x y no_errors eq_refl Vb Vd Nb Nd Y F P D). reflexivity.
Qed.
Print Assumptions C26_fractions_partial.
(** The tolerance is between 2^-57 and 2^-56: a number that near a multiple is taken for one. *)
Theorem C26_tolerance_partial : forall (rx : bytes -> option (bytes -> bool)) (get_schema : bytes -> res value) (b d : value) (x y : R) (k : Z),
  vok b -> vok d -> num_val b = Some (Fin y) -> num_val d = Some (Fin x) -> (0 < y)%R -> (exists f, b = VFlt f) \/ (exists f, d = VFlt f) ->
  (0 <= x)%R -> (Rabs (x - IZR k * y) <= bpow radix2 (-57))%R -> schema_validate rx get_schema 101 (VMap [(s2b "multipleOf", b)]) d = Ok no_errors.
Proof.
  intros rx get_schema b d x y k Vb Vd Nb Nd Y F P D. assert (N : number d = true) by (apply (number_num d _ Nd)). rewrite (only_multiple rx get_schema b d N).
  rewrite (near_multiple [(s2b "multipleOf", b)] b d x y no_errors eq_refl Vb Vd Nb Nd Y F k P D). reflexivity.
Qed.
Print Assumptions C26_tolerance_partial.
Definition half : spec_float := S754_finite false 9223372036854775808 (-64).
Lemma half_val : SF2R radix2 half = (1/2)%R.
Proof. unfold half, SF2R, F2R, bpow. cbn [cond_Zopp Fnum Fexp radix_val radix2]. change (Z.pow_pos 2 64) with 18446744073709551616%Z. lra. Qed.
Example C26_fractions_example : vok (VFlt half) /\ vok (VUns 3) /\ num_val (VFlt half) = Some (Fin (1/2)%R) /\ num_val (VUns 3) = Some (Fin 3) /\ (3 = IZR 6 * (1/2))%R /\
  (forall k, bpow radix2 (-56) <= Rabs (1/2 - IZR k * 3))%R.
Proof.
  split; [vm_compute; reflexivity|]. split; [reflexivity|]. split; [rewrite <- half_val; reflexivity|]. split; [reflexivity|]. split; [lra|].
  intros k. apply Rle_trans with (bpow radix2 (-1)); [apply bpow_le; lia|]. change (bpow radix2 (-1)) with (/2)%R.
  destruct (Z_le_gt_dec k 0) as [L|L].
  - apply IZR_le in L. rewrite Rabs_pos_eq; lra.
  - assert (L' : (1 <= k)%Z) by lia. apply IZR_le in L'. rewrite Rabs_left1; lra.
Qed.
(** 2^-58 is no multiple of a half, but that near to zero. *)
Definition tiny : spec_float := S754_finite false 9223372036854775808 (-121).
Lemma tiny_val : SF2R radix2 tiny = bpow radix2 (-58).
Proof. unfold tiny, SF2R, F2R. cbn [cond_Zopp Fnum Fexp]. change 9223372036854775808%Z with (radix2 ^ 63)%Z. rewrite IZR_Zpower by lia. rewrite <- bpow_plus. reflexivity. Qed.
Example C26_tolerance_example : vok (VFlt half) /\ vok (VFlt tiny) /\ num_val (VFlt half) = Some (Fin (1/2)%R) /\ num_val (VFlt tiny) = Some (Fin (bpow radix2 (-58))) /\
  (0 <= bpow radix2 (-58))%R /\ (Rabs (bpow radix2 (-58) - IZR 0 * (1/2)) <= bpow radix2 (-57))%R /\ (bpow radix2 (-58) <> IZR 0 * (1/2))%R.
Proof.
  pose proof (bpow_gt_0 radix2 (-58)) as P. pose proof (bpow_le radix2 (-58) (-57) ltac:(lia)) as L.
  split; [vm_compute; reflexivity|]. split; [vm_compute; reflexivity|]. split; [rewrite <- half_val; reflexivity|]. split; [rewrite <- tiny_val; reflexivity|].
  split; [apply Rlt_le, P|]. rewrite Rmult_0_l, Rminus_0_r. split; [rewrite Rabs_pos_eq by (apply Rlt_le, P); exact L|]. apply Rgt_not_eq. exact P.
Qed.

(** *** What is false *)

(** JSON reads 3 as an unsigned number, so that -3 is converted to one. *)
Theorem C26_negative_multiple_refuted : exists schema data,
  deserialize_json 100 (s2b "{""multipleOf"":3}") = Ok (VMap schema) /\ deserialize_json 100 (s2b "[-3]") = Ok (VList [data]) /\
  m_multiple schema data /\
  forall rx get_schema, schema_validate rx get_schema 101 (VMap schema) data = Ok (SCtx true false).
Proof.
  exists [(s2b "multipleOf", VUns 3)], (VInt (-3)). split; [vm_compute; reflexivity|]. split; [vm_compute; reflexivity|]. split.
  - intros b x y K X Y. vm_compute in K. injection K as <-. injection X as <-. injection Y as <-. exists (-1)%Z. cbn. lra.
  - intros. vm_compute. reflexivity.
Qed.
Print Assumptions C26_negative_multiple_refuted.

(** A negative remainder is less than the tolerance: any negative number is taken for a multiple of a fraction. *)
Theorem C26_negative_fraction_refuted : exists schema data,
  deserialize_json 100 (s2b "{""multipleOf"":2.0}") = Ok (VMap schema) /\ deserialize_json 100 (s2b "[-1.5]") = Ok (VList [data]) /\
  ~ m_multiple schema data /\
  forall rx get_schema, schema_validate rx get_schema 101 (VMap schema) data = Ok no_errors.
Proof.
  pose (b := ld_of_Z 2). pose (f := ld_div (ld_of_Z (-3)) (ld_of_Z 2)). vm_compute in b, f.
  exists [(s2b "multipleOf", VFlt b)], (VFlt f). split; [vm_compute; reflexivity|]. split; [vm_compute; reflexivity|]. split.
  - intros M. destruct (M (VFlt b) _ _ eq_refl eq_refl eq_refl) as [k E].
    assert (Rb : SF2R radix2 b = 2%R).
    { unfold b, SF2R, F2R, bpow. cbn [cond_Zopp Fnum Fexp radix_val radix2]. change (Z.pow_pos 2 62) with 4611686018427387904%Z. lra. }
    assert (Rf : SF2R radix2 f = (-3/2)%R).
    { unfold f, SF2R, F2R, bpow. cbn [cond_Zopp Fnum Fexp radix_val radix2]. change (Z.pow_pos 2 63) with 9223372036854775808%Z.
      change (- (13835058055282163712))%Z with (-13835058055282163712)%Z. lra. }
    rewrite Rb, Rf in E. assert (Q : IZR (-3) = (IZR (4 * k))%R). { rewrite mult_IZR. lra. } apply eq_IZR in Q. lia.
  - intros. vm_compute. reflexivity.
Qed.
Print Assumptions C26_negative_fraction_refuted.

(** A number within the tolerance of a multiple that is not one. *)
Theorem C26_small_fraction_refuted : exists schema data,
  deserialize_json 100 (s2b "{""multipleOf"":0.5}") = Ok (VMap schema) /\ deserialize_json 100 (s2b "[1e-18]") = Ok (VList [data]) /\
  ~ m_multiple schema data /\
  forall rx get_schema, schema_validate rx get_schema 101 (VMap schema) data = Ok no_errors.
Proof.
  pose (f := match deserialize_json 100 (s2b "[1e-18]") with Ok (VList [VFlt x]) => x | _ => S754_nan end). vm_compute in f.
  exists [(s2b "multipleOf", VFlt half)], (VFlt f). split; [vm_compute; reflexivity|]. split; [vm_compute; reflexivity|]. split.
  - intros M. destruct (M (VFlt half) _ _ eq_refl eq_refl eq_refl) as [k E]. fold half in E. rewrite half_val in E.
    assert (B : (0 < SF2R radix2 f < 1/2)%R).
    { unfold f, SF2R. cbn [cond_Zopp]. split; [apply F2R_gt_0; reflexivity|].
      apply Rlt_le_trans with (bpow radix2 (64 + -123)).
      - unfold F2R. cbn [Fnum Fexp]. rewrite bpow_plus. apply Rmult_lt_compat_r; [apply bpow_gt_0|]. rewrite <- IZR_Zpower by lia. apply IZR_lt. reflexivity.
      - apply Rle_trans with (bpow radix2 (-1)); [apply bpow_le; lia|]. cbn. lra. }
    rewrite E in B. destruct B as [B1 B2].
    assert (L : (IZR 0 < IZR k)%R) by lra. apply lt_IZR in L. assert (L2 : (IZR k < IZR 1)%R) by lra. apply lt_IZR in L2. lia.
  - intros. vm_compute. reflexivity.
Qed.
Print Assumptions C26_small_fraction_refuted.

(** Zero as a divisor of a whole number: undefined. *)
Theorem C26_zero_multiple_refuted : exists schema data,
  deserialize_json 100 (s2b "{""multipleOf"":0}") = Ok (VMap schema) /\ deserialize_json 100 (s2b "[6]") = Ok (VList [data]) /\
  forall rx get_schema, schema_validate rx get_schema 101 (VMap schema) data = UB.
Proof.
  exists [(s2b "multipleOf", VUns 0)], (VUns 6). split; [vm_compute; reflexivity|]. split; [vm_compute; reflexivity|]. intros. vm_compute. reflexivity.
Qed.
Print Assumptions C26_zero_multiple_refuted.

(** Lengths are counted in bytes: a text of one character, two bytes in UTF-8, is longer than one. *)
Theorem C26_length_refuted : exists schema data,
  deserialize_json 100 (s2b "{""maxLength"":1}") = Ok (VMap schema) /\ deserialize_json 100 (s2b "[""é""]") = Ok (VList [data]) /\
  (forall rx, m_string rx schema data) /\
  forall rx get_schema, schema_validate rx get_schema 101 (VMap schema) data = Ok (SCtx true false).
Proof.
  exists [(s2b "maxLength", VUns 1)], (VStr [bchr 195; bchr 169]). split; [vm_compute; reflexivity|]. split; [vm_compute; reflexivity|]. split.
  - intros rx s [= <-]. split; [split|].
    + intros b n K. vm_compute in K. discriminate.
    + intros b n K C. vm_compute in K. injection K as <-. vm_compute in C. injection C as <-. vm_compute. discriminate.
    + intros p f K. vm_compute in K. discriminate.
  - intros. vm_compute. reflexivity.
Qed.
Print Assumptions C26_length_refuted.

(** Infinity and NaN are integers for the validator. *)
Theorem C26_infinity_integer_refuted : exists schema,
  deserialize_json 100 (s2b "{""type"":""integer""}") = Ok (VMap schema) /\
  forall x, In x [S754_infinity false; S754_infinity true; S754_nan] ->
  ~ m_type schema (VFlt x) /\ forall rx get_schema, schema_validate rx get_schema 101 (VMap schema) (VFlt x) = Ok no_errors.
Proof.
  exists [(s2b "type", VStr (s2b "integer"))]. split; [vm_compute; reflexivity|].
  assert (T : forall x, (forall r, num_val (VFlt x) <> Some (Fin r)) -> ~ m_type [(s2b "type", VStr (s2b "integer"))] (VFlt x)).
  { intros x N M. change (type_is (s2b "integer") (VFlt x)) in M.
    destruct M as [[_ [l M]]|[[_ [l M]]|[[_ [l M]]|[[_ M]|[[E _]|[[_ [l M]]|[_ [l M]]]]]]]]; try discriminate M; [exact (N _ M)|vm_compute in E; discriminate E]. }
  intros x [<-|[<-|[<-|[]]]]; (split; [apply T; intros r; discriminate|intros; vm_compute; reflexivity]).
Qed.
Print Assumptions C26_infinity_integer_refuted.

(** Keywords beside "$ref" count; in draft 4 they do not. *)
Theorem C26_beside_reference_refuted : exists schema data,
  deserialize_json 100 (s2b "{""$ref"":""#/x"",""type"":""string""}") = Ok (VMap schema) /\
  forall rx get_schema, get_schema (s2b "#/x") = Ok (VMap []) ->
  (forall H : value -> value -> Prop, H (VMap []) data -> meets rx get_schema H schema data) /\
  schema_validate rx get_schema 101 (VMap schema) data = Ok (SCtx true false).
Proof.
  exists [(s2b "$ref", VStr (s2b "#/x")); (s2b "type", VStr (s2b "string"))], VNull. split; [vm_compute; reflexivity|].
  intros rx get_schema G. split.
  - intros H Q. change (exists s, get_schema (s2b "#/x") = Ok s /\ H s VNull). eauto.
  - unfold schema_validate. match goal with |- context [VMap ?m] => change (validate rx get_schema 101 0 (VMap m) VNull no_errors) with
      (validate_map rx get_schema (validate rx get_schema 100 1) m VNull no_errors) end.
    unfold validate_map. change (key "$ref" _) with (Some (VStr (s2b "#/x"))). cbv iota. rewrite G. vm_compute. reflexivity.
Qed.
Print Assumptions C26_beside_reference_refuted.

(** Beyond the limit the answer is wrong, even without a reference: 100 times "not" around a
    schema that says nothing. *)
Fixpoint nots (n : nat) (s : value) : value := match n with O => s | S n => VMap [(s2b "not", nots n s)] end.
Lemma meets_not rx get_schema H s d : meets rx get_schema H [(s2b "not", s)] d <-> ~ H s d.
Proof.
  unfold meets. change (kw "$ref" [(s2b "not", s)]) with (@None value). cbv iota. split.
  - intros (_ & _ & _ & _ & _ & _ & _ & _ & _ & _ & _ & N). exact (N s eq_refl).
  - intros N. split; [exact I|]. split; [exact I|].
    split; [intros b x y K; vm_compute in K; discriminate|]. split; [intros b x y K; vm_compute in K; discriminate|]. split; [intros b x y K; vm_compute in K; discriminate|].
    split; [|split; [|split]].
    + intros t _. split; [split; intros b n K; vm_compute in K; discriminate|]. intros p f K. vm_compute in K. discriminate.
    + intros l _. split; [split; intros b n K; vm_compute in K; discriminate|]. split; [intros K; vm_compute in K; discriminate|exact I].
    + intros fs _. split; [split; intros b n K; vm_compute in K; discriminate|]. split; [intros l k K; vm_compute in K; discriminate|]. split.
      * intros k x _. split; [intros t (ps & K & _); vm_compute in K; discriminate|]. split; [intros t (ps & p & f & K & _); vm_compute in K; discriminate|]. intros _ _. exact I.
      * intros deps k dep K. vm_compute in K. discriminate.
    + split; [intros l K; vm_compute in K; discriminate|]. split; [intros l K; vm_compute in K; discriminate|]. split; [intros l K; vm_compute in K; discriminate|].
      intros t K. injection K as <-. exact N.
Qed.
Theorem C26_limit_refuted : exists schema data,
  forall rx get_schema, usable rx get_schema 101 schema data /\
  (forall H, means_schemas rx get_schema H -> H schema data) /\
  schema_validate rx get_schema 101 schema data = Ok (SCtx true false).
Proof.
  exists (nots 100 VNull), VNull. intros rx get_schema.
  assert (U : forall n, (n <= 100)%nat -> usable rx get_schema (S n) (nots n VNull) VNull).
  { intros n L. apply usableb_ok. clear L. induction n as [|n IH]; [reflexivity|].
    change (usableb rx get_schema (S (S n)) (nots (S n) VNull) VNull) with (mapb rx get_schema (usableb rx get_schema (S n)) [(s2b "not", nots n VNull)] VNull).
    unfold mapb. change (kw "$ref" [(s2b "not", nots n VNull)]) with (@None value). cbn [fine andb numericb stringb arrayb objectb type_of is_num].
    unfold combb, schemasb. change (kw "not" [(s2b "not", nots n VNull)]) with (Some (nots n VNull)). unfold opt at 4. rewrite IH. reflexivity. }
  split; [apply (U 100%nat); lia|]. split.
  - intros H M. assert (P : forall n, (2 * n <= 100)%nat -> H (nots (2 * n) VNull) VNull).
    { induction n as [|n IH]; intros L; [exact (M 1%nat VNull VNull I)|].
      replace (2 * S n)%nat with (S (S (2 * n))) in * by lia. pose proof (M _ _ _ (U (S (S (2 * n))) L)) as M1. pose proof (M _ _ _ (U (S (2 * n))%nat ltac:(lia))) as M2.
      cbn [nots] in *. rewrite meets_not in M1, M2. rewrite M1, M2. intros Q. apply Q, IH. lia. }
    apply (P 50%nat). lia.
  - vm_compute. reflexivity.
Qed.
Print Assumptions C26_limit_refuted.

(** "not" turns the outcome round, for every schema, also those that cannot be used: it reports no
    error exactly when the schema in it, one level down, reports one. *)
Theorem C26_not_partial : forall (rx : bytes -> option (bytes -> bool)) (get_schema : bytes -> res value) (s d : value) (o : flow),
  validate rx get_schema 100 1 s d no_errors = Ok o ->
  exists c, schema_validate rx get_schema 101 (VMap [(s2b "not", s)]) d = Ok c /\
  (failed c = false <-> match o with Go n => failed n = true | Stop _ => True end).
Proof.
  intros rx get_schema s d o E. unfold schema_validate.
  assert (V : validate rx get_schema 101 0 (VMap [(s2b "not", s)]) d no_errors = validate_not (validate rx get_schema 100 1) [(s2b "not", s)] d no_errors).
  { set (sub := validate rx get_schema 100 1). change (validate rx get_schema 101 0 (VMap [(s2b "not", s)]) d no_errors) with
      (validate_map rx get_schema sub [(s2b "not", s)] d no_errors). destruct d as [| | | | | |l|m|]; try reflexivity.
    assert (P : validate_properties rx sub [(s2b "not", s)] m no_errors = Ok (Go no_errors)).
    { change (each (fun kv c => next (Ok (Go c)) (fun c => next (Ok (Go c)) (fun c => Ok (Go c)))) m no_errors = Ok (Go no_errors)). apply each_go. reflexivity. }
    assert (O : validate_object rx sub [(s2b "not", s)] (VMap m) no_errors = Ok (Go no_errors)).
    { change (next (validate_properties rx sub [(s2b "not", s)] m no_errors) (validate_dependencies sub [(s2b "not", s)] m) = Ok (Go no_errors)). rewrite P. reflexivity. }
    change (next (validate_object rx sub [(s2b "not", s)] (VMap m) no_errors) (validate_combinations sub [(s2b "not", s)] (VMap m)) = validate_not sub [(s2b "not", s)] (VMap m) no_errors).
    rewrite O. reflexivity. }
  rewrite V. unfold validate_not. change (key "not" [(s2b "not", s)]) with (Some s). cbv iota beta. rewrite E. cbn [rbind].
  destruct o as [n|n]; [destruct (failed n) eqn:F|]; cbn [add_error rbind]; eexists; (split; [reflexivity|]); cbn; split; auto; discriminate.
Qed.
Print Assumptions C26_not_partial.
Example C26_not_example : validate (fun _ => None) (fun _ => Throw RuntimeError) 100 1 (jtext "{""minimum"":""x""}") (VUns 3) no_errors = Ok (Go (SCtx false true)).
Proof. vm_compute. reflexivity. Qed.

(** ** Formats *)

(** "date" accepts the texts YYYY-MM-DD with months up to 19 and days up to 39, "time" the texts
    hh:mm:ss with hours up to 29, "date-time" a year with any number of the other parts, and
    "regex" what the library can compile; all other texts are refused.  [posix]: the library reads
    simple anchored expressions as POSIX says. *)
Theorem C26_format_partial : forall (rx : bytes -> option (bytes -> bool)) (get_schema : bytes -> res value) (s : bytes),
  posix rx -> nul_free s ->
  let run f := schema_validate rx get_schema 101 (VMap [(s2b "format", VStr (s2b f))]) (VStr s) in
  let exactly f (P : Prop) := (P /\ run f = Ok no_errors) \/ (~ P /\ run f = Ok (SCtx true false)) in
  exactly "date"%string (exists y m d, y < 10000 /\ m < 20 /\ d < 40 /\ s = four y ++ "-"%char :: two m ++ "-"%char :: two d) /\
  exactly "time"%string (exists h m k, h < 30 /\ m < 60 /\ k < 60 /\ s = two h ++ ":"%char :: two m ++ ":"%char :: two k) /\
  exactly "date-time"%string (date_time_text s) /\
  exactly "regex"%string (exists f, rx s = Some f).
Proof.
  intros rx get_schema s PX NF run exactly.
  assert (R : forall f, run f = do o <- validate_format rx [(s2b "format", VStr (s2b f))] s no_errors; Ok (match o with Go c => c | Stop c => c end)).
  { intros f. unfold run, schema_validate. change (validate rx get_schema 101 0 (VMap [(s2b "format", VStr (s2b f))]) (VStr s) no_errors) with
      (next (validate_format rx [(s2b "format", VStr (s2b f))] s no_errors) (fun c => Ok (Go c))).
    destruct (validate_format _ _ _ _) as [[c|c]| | | |]; reflexivity. }
  assert (G : forall f p r (P : Prop), ere p = Some r -> (lang r s <-> P) ->
    validate_format rx [(s2b "format", VStr (s2b f))] s no_errors = match rx p with None => add_schema_error no_errors | Some g => if g (c_str s) then Ok (Go no_errors) else add_error no_errors end ->
    exactly f P).
  { intros f p r P E L V. destruct (PX p r E) as (g & Eg & Hg). unfold exactly. rewrite R, V, Eg, c_str_id by exact NF. destruct (g s) eqn:Q.
    - left. split; [apply L, Hg, Q|reflexivity].
    - right. split; [|reflexivity]. intros H. apply L, Hg in H. congruence. }
  split; [apply (G _ date_re _ _ date_read (date_lang s)); reflexivity|].
  split; [apply (G _ time_re _ _ time_read (time_lang s)); reflexivity|].
  split; [apply (G _ date_time_re _ _ date_time_read (date_time_lang s)); reflexivity|].
  unfold exactly. rewrite R. change (validate_format rx [(s2b "format", VStr (s2b "regex"))] s no_errors) with
    (match rx (c_str s) with None => add_error no_errors | Some _ => Ok (Go no_errors) end). rewrite c_str_id by exact NF.
  destruct (rx s) as [g|]; [left; split; [eauto|reflexivity]|right; split; [intros [f E]; discriminate E|reflexivity]].
Qed.
Print Assumptions C26_format_partial.
(** A library that reads just these expressions. *)
Definition small_rx (p : bytes) : option (bytes -> bool) := match ere p with Some r => Some (rmatch r) | None => None end.
Lemma small_posix : posix small_rx.
Proof. intros p r E. unfold small_rx. rewrite E. exists (rmatch r). split; [reflexivity|]. intros s. apply rmatch_lang. Qed.
Example C26_format_example : posix small_rx /\ nul_free (s2b "2026-11-15") /\
  schema_validate small_rx (fun _ => Throw RuntimeError) 101 (jtext "{""format"":""date""}") (VStr (s2b "2026-11-15")) = Ok no_errors /\
  schema_validate small_rx (fun _ => Throw RuntimeError) 101 (jtext "{""format"":""date""}") (VStr (s2b "15-11-2026")) = Ok (SCtx true false).
Proof. split; [exact small_posix|]. split; [intros H; vm_compute in H; repeat (destruct H as [H|H]; [discriminate H|]); exact H|]. split; vm_compute; reflexivity. Qed.

(** RFC 3339, section 5.6, that "date-time" of draft 4 stands for (7.3.1); months are not given
    their lengths, and "t" and "z" are not allowed. *)
Definition rfc3339 (s : bytes) : Prop := exists y mo d h mi se frac off,
  y < 10000 /\ 1 <= mo <= 12 /\ 1 <= d <= 31 /\ h <= 23 /\ mi <= 59 /\ se <= 60 /\
  (frac = [] \/ exists ds, ds <> [] /\ Forall (fun c => exists n, n < 10 /\ c = digit n) ds /\ frac = "."%char :: ds) /\
  (off = s2b "Z" \/ exists sg oh om, (sg = "+"%char \/ sg = "-"%char) /\ oh <= 23 /\ om <= 59 /\ off = sg :: two oh ++ ":"%char :: two om) /\
  s = four y ++ "-"%char :: two mo ++ "-"%char :: two d ++ "T"%char :: two h ++ ":"%char :: two mi ++ ":"%char :: two se ++ frac ++ off.
(** A year alone is accepted as a date and time, month 19 and hour 99 too; a time zone or a
    fraction of a second is refused. *)
Theorem C26_date_time_refuted :
  (forall s, In s [s2b "2012"; s2b "9999-19-39T99:99:99Z"] -> ~ rfc3339 s /\ forall rx get_schema, posix rx ->
     schema_validate rx get_schema 101 (VMap [(s2b "format", VStr (s2b "date-time"))]) (VStr s) = Ok no_errors) /\
  (forall s, In s [s2b "2012-01-01T00:00:00+01:00"; s2b "2012-01-01T00:00:00.5Z"] -> rfc3339 s /\ forall rx get_schema, posix rx ->
     schema_validate rx get_schema 101 (VMap [(s2b "format", VStr (s2b "date-time"))]) (VStr s) = Ok (SCtx true false)).
Proof.
  assert (RUN : forall s, nul_free s -> forall rx get_schema, posix rx -> schema_validate rx get_schema 101 (VMap [(s2b "format", VStr (s2b "date-time"))]) (VStr s) =
    Ok (if rmatch date_time_expr s then no_errors else SCtx true false)).
  { intros s NF rx get_schema PX. destruct (C26_format_partial rx get_schema s PX NF) as (_ & _ & [[P E]|[P E]] & _); rewrite E; rewrite <- date_time_lang, <- rmatch_lang in P;
      destruct (rmatch date_time_expr s); congruence. }
  assert (NF : forall s, List.existsb (Ascii.eqb (bchr 0)) s = false -> nul_free s).
  { intros s E I. assert (X : List.existsb (Ascii.eqb (bchr 0)) s = true) by (apply existsb_exists; exists (bchr 0); split; [exact I|apply Ascii.eqb_refl]). congruence. }
  split.
  - intros s [<-|[<-|[]]]; (split; [|intros rx get_schema PX; rewrite RUN; [vm_compute; reflexivity|apply NF; vm_compute; reflexivity|exact PX]]).
    + intros (y & mo & d & h & mi & se & frac & off & _ & _ & _ & _ & _ & _ & _ & _ & E). apply (f_equal (@List.length ascii)) in E. rewrite app_length in E. cbn in E. lia.
    + intros (y & mo & d & h & mi & se & frac & off & _ & M & _ & _ & _ & _ & _ & _ & E).
      pose proof (f_equal (fun s => bval (nth 5 s "0"%char)) E) as E1. pose proof (f_equal (fun s => bval (nth 6 s "0"%char)) E) as E2. clear E.
      change (49 = bval (digit (mo / 10))) in E1. change (57 = bval (digit (mo mod 10))) in E2.
      pose proof (N.mod_lt mo 10 ltac:(discriminate)) as L. assert (L' : mo / 10 < 10) by (apply N.div_lt_upper_bound; lia).
      rewrite digit_val in E1, E2 by assumption. pose proof (N.div_mod mo 10 ltac:(discriminate)) as Q. lia.
  - intros s [<-|[<-|[]]]; (split; [|intros rx get_schema PX; rewrite RUN; [vm_compute; reflexivity|apply NF; vm_compute; reflexivity|exact PX]]).
    + exists 2012, 1, 1, 0, 0, 0, [], (s2b "+01:00"). repeat (split; [lia|]). split; [auto|]. split; [|reflexivity]. right. exists "+"%char, 1, 0. repeat split; auto; lia.
    + exists 2012, 1, 1, 0, 0, 0, (s2b ".5"), (s2b "Z"). repeat (split; [lia|]). split; [|split; [auto|reflexivity]]. right. exists (s2b "5").
      split; [discriminate|]. split; [|reflexivity]. constructor; [|constructor]. exists 5. split; [lia|reflexivity].
Qed.
Print Assumptions C26_date_time_refuted.

(** ** C27 *)

(** Validation ends for every schema and all data, whatever the references lead to: no more than
    100 calls of SchemaValidate are ever one inside the other. *)
Theorem C27_ends_partial : forall (rx : bytes -> option (bytes -> bool)) (get_schema : bytes -> res value) (schema data : value) (fuel : nat),
  (forall u, get_schema u <> Fuel) -> (101 <= fuel)%nat ->
  schema_validate rx get_schema fuel schema data <> Fuel /\
  schema_validate rx get_schema fuel schema data = schema_validate rx get_schema 101 schema data.
Proof.
  intros rx get_schema schema data fuel G L. split.
  - unfold schema_validate. apply rbind_nf; [|discriminate]. apply validate_nf; [exact G|unfold RECURSION_LIMIT; lia|unfold RECURSION_LIMIT; lia].
  - unfold schema_validate. f_equal. replace fuel with (fuel - 101 + 101)%nat by lia. generalize (fuel - 101)%nat. clear. intros k.
    enough (E : validate rx get_schema (k + 101) 0 = validate rx get_schema 101 0) by (rewrite E; reflexivity).
    induction k as [|k IH]; [reflexivity|]. cbn [Nat.add]. rewrite validate_more; [exact IH|unfold RECURSION_LIMIT; lia|unfold RECURSION_LIMIT; lia].
Qed.
Print Assumptions C27_ends_partial.

(** References in circles are reported. *)
Example C27_circle : forall data,
  schema_validate (fun _ => None) (fun _ => Ok (VMap [(s2b "$ref", VStr (s2b "#"))])) 101 (VMap [(s2b "$ref", VStr (s2b "#"))]) data = Ok (SCtx false true).
Proof. intros data. vm_compute. reflexivity. Qed.
