(** C53: what the command line parser returns is valid under the schema that it generates. *)
From Coq Require Import Reals.
From Verif Require Import Base CNum Float Value Convert Numeric NumberSpec P_Equal ParseBool GuessScalar Path ValueOps ParserInput Emit Schema SchemaSem SchemaProofs ArgParse P_ArgParse ArgSchema.
Open Scope N_scope.

(** ** What is claimed *)
(** The types whose names TypeString has right; [NullType] stands for any. *)
Definition suits (t : vtype) (v : value) : Prop :=
  match t, v with
  | NullType, _ | BoolType, VBool _ | IntegerType, VInt _ | IntegerType, VUns _ | UnsignedType, VUns _ | FloatType, VFlt _ | StringType, VStr _ => True
  | _, _ => False
  end.
(** A description that makes sense: bounds are numbers, sizes are counts, patterns are texts, and the default fits the option itself. *)
Record sound (rx : bytes -> option (bytes -> bool)) (o : aopt) : Prop := {
  s_type : In (o_type o) [NullType; BoolType; IntegerType; UnsignedType; FloatType; StringType];
  s_bound : forall k b, In k ["minimum"; "maximum"]%string -> mget (s2b k) (o_opt o) = Some b -> (exists z, b = VInt z) \/ (exists n, b = VUns n) \/ (exists x, b = VFlt x);
  s_size : forall k b, In k ["minLength"; "maxLength"; "minArgs"; "maxArgs"]%string -> mget (s2b k) (o_opt o) = Some b -> vok b /\ count_of b <> None;
  s_pattern : forall b, mget (s2b "pattern") (o_opt o) = Some b -> exists s, b = VStr s;
  s_enum : forall l, mget (s2b "enum") (o_opt o) = Some (VList l) -> Forall vok l;
  s_default : forall v, mget (s2b "default") (o_opt o) = Some v ->
    match o_action o with
    | AStore | AAppend => suits (o_type o) v /\ meets rx o v
    | AStoreConst => exists c, mget (s2b "const") (o_opt o) = Some c /\ v_eq c v = Ok true
    | AStoreTrue | AStoreFalse => exists b, v = VBool b
    | _ => True
    end }.

(** ** Proof: one option *)
Lemma copy_sorted o s k : msorted s -> msorted (copy_key o s k).
Proof. unfold copy_key. destruct (akey k o); auto. apply msorted_mset. Qed.
Lemma copy_get o s k k' : msorted s -> mget k' (copy_key o s k) = if beqb k' (s2b k) then match akey k o with Some v => Some v | None => mget k' s end else mget k' s.
Proof. intros H. unfold copy_key. destruct (akey k o); [rewrite mget_mset by auto; reflexivity|]. now destruct (beqb k' (s2b k)). Qed.
Lemma sorted_nil : msorted (@nil (bytes * value)). Proof. exact I. Qed.
Lemma demands_sorted o s : msorted s -> msorted (demands o s).
Proof.
  intros H. unfold demands. cbn [fold_left]. repeat apply copy_sorted. destruct (o_type o); auto using msorted_mset.
Qed.
Lemma demands_get o s k : msorted s -> mget k (demands o s) =
  if beqb k (s2b "type") then match o_type o with NullType => mget k s | t => Some (VStr (type_string t)) end
  else if existsb (fun x => beqb k (s2b x)) ["minimum"; "maximum"; "minLength"; "maxLength"; "pattern"; "enum"]%string
       then match mget k (o_opt o) with Some v => Some v | None => mget k s end else mget k s.
Proof.
  intros H. unfold demands. cbn [fold_left]. set (s0 := match o_type o with NullType => s | _ => _ end).
  assert (H0 : msorted s0) by (subst s0; destruct (o_type o); auto using msorted_mset).
  assert (G0 : mget k s0 = if beqb k (s2b "type") then match o_type o with NullType => mget k s | t => Some (VStr (type_string t)) end else mget k s).
  { subst s0. destruct (o_type o); rewrite ?mget_mset by auto; try reflexivity. now destruct (beqb k (s2b "type")). }
  repeat (rewrite copy_get by (repeat apply copy_sorted; exact H0)). rewrite G0. clear G0 H0 s0.
  cbn [existsb]. rewrite Bool.orb_false_r.
  destruct (beqb k (s2b "type")) eqn:T.
  - apply beqb_eq in T. subst k. reflexivity.
  - unfold akey.
    repeat match goal with |- context [beqb k (s2b ?x)] => let B := fresh in destruct (beqb k (s2b x)) eqn:B; [apply beqb_eq in B; subst k; cbn [orb]; vm_compute beqb; cbv iota; reflexivity|] end.
    reflexivity.
Qed.
(** The keys of a schema that are not generated for an option. *)
Definition never : list String.string := ["$ref"; "multipleOf"; "divisibleBy"; "exclusiveMinimum"; "exclusiveMaximum"; "format"; "uniqueItems"; "minProperties"; "maxProperties"; "required"; "properties"; "patternProperties"; "additionalProperties"; "dependencies"; "allOf"; "anyOf"; "oneOf"; "not"]%string.
Definition bare (m : list (bytes * value)) : Prop := forall k, In k never -> key k m = None.
Section Leaf.
  Variable rx : bytes -> option (bytes -> bool).
  Variable get_schema : bytes -> res value.
  Section Sub.
    Variable sub : value -> value -> sctx -> res flow.
    Lemma leaf_go m v c : bare m -> validate_type m v c = Ok (Go c) -> validate_enum m v c = Ok (Go c) -> validate_numeric m v c = Ok (Go c) ->
      validate_string rx m v c = Ok (Go c) -> validate_array sub m v c = Ok (Go c) -> validate_map rx get_schema sub m v c = Ok (Go c).
    Proof.
      intros K E1 E2 E3 E4 E5. unfold validate_map. rewrite (K "$ref"%string) by (cbn; tauto). cbn [next rbind].
      rewrite E1. cbn [next rbind]. rewrite E2. cbn [next rbind]. rewrite E3. cbn [next rbind]. rewrite E4. cbn [next rbind]. rewrite E5. cbn [next rbind].
      assert (E6 : validate_object rx sub m v c = Ok (Go c)).
      { unfold validate_object. destruct v as [| | | | | | |fs|]; try reflexivity. unfold validate_size, validate_required, validate_properties, validate_dependencies.
        rewrite (K "minProperties"%string), (K "maxProperties"%string), (K "required"%string), (K "patternProperties"%string), (K "properties"%string), (K "dependencies"%string) by (cbn; tauto).
        cbn [next rbind]. rewrite each_go.
        - cbn [next rbind]. destruct c; cbn. rewrite !Bool.orb_false_r. reflexivity.
        - intros x c0. cbn [mget List.filter next rbind each]. rewrite (K "additionalProperties"%string) by (cbn; tauto). reflexivity. }
      rewrite E6. cbn [next rbind]. unfold validate_combinations, validate_all, validate_any, validate_one, validate_not.
      rewrite (K "allOf"%string), (K "anyOf"%string), (K "oneOf"%string), (K "not"%string) by (cbn; tauto). reflexivity.
    Qed.
    Lemma array_absent m v c : bare m -> key "minItems" m = None -> key "maxItems" m = None -> key "items" m = None -> validate_array sub m v c = Ok (Go c).
    Proof.
      intros K A B C. unfold validate_array. destruct v; try reflexivity. unfold validate_size, validate_unique, validate_items.
      rewrite A, B, C, (K "uniqueItems"%string) by (cbn; tauto). reflexivity.
    Qed.
  End Sub.
  Lemma string_absent m v c : bare m -> key "minLength" m = None -> key "maxLength" m = None -> key "pattern" m = None -> validate_string rx m v c = Ok (Go c).
  Proof.
    intros K A B C. unfold validate_string. destruct v; try reflexivity. unfold validate_size, validate_pattern, validate_format.
    rewrite A, B, C, (K "format"%string) by (cbn; tauto). reflexivity.
  Qed.
  Lemma numeric_absent m v c : bare m -> key "minimum" m = None -> key "maximum" m = None -> validate_numeric m v c = Ok (Go c).
  Proof.
    intros K A B. unfold validate_numeric. destruct (number v); [|reflexivity]. unfold validate_multiple, validate_minmax, validate_bound.
    rewrite A, B, (K "multipleOf"%string), (K "divisibleBy"%string) by (cbn; tauto). reflexivity.
  Qed.
  Lemma type_suits t v c : In t [BoolType; IntegerType; UnsignedType; FloatType; StringType] -> suits t v -> type_loop [VStr (type_string t)] [VStr (type_string t)] v c = Ok (Go c).
  Proof. intros T S. cbn in T. destruct T as [<- | [<- | [<- | [<- | [<- | []]]]]]; destruct v; destruct S; reflexivity. Qed.
  Lemma eq_comparable a b : v_eq a b = Ok true -> comparable b a = true.
  Proof. unfold v_eq, comparable. destruct a, b; try reflexivity; cbn; intros; discriminate. Qed.
  Lemma enum_in v l1 x l2 : vok v -> Forall vok (l1 ++ x :: l2) -> v_eq v x = Ok true -> enum_loop (l1 ++ x :: l2) v = Ok true.
  Proof.
    intros V F E. induction l1 as [|y l1 IH]; cbn [app enum_loop].
    - rewrite (eq_comparable _ _ E). cbn [app] in F. apply Forall_inv in F.
      rewrite (proj2 (C18_reflexive_symmetric x v F V)), E. reflexivity.
    - inversion F as [|? ? VY F']; subst. specialize (IH F'). rewrite IH. destruct (comparable y v); [|reflexivity].
      destruct (C18_equal_full y v VY V) as ([|] & -> & _); reflexivity.
  Qed.
  Lemma count_le n b k : n < 2^64 -> vok b -> count_of b = Some k -> v_lt (VUns n) b = Ok false -> k <= n.
  Proof.
    intros L V C E. assert (exists y, num_val b = Some (Fin (IZR (Z.of_N k))) /\ y = 0) as (y & X & _).
    { exists 0. split; [|reflexivity]. destruct b as [| |z|j| | | | |]; try discriminate; cbn [count_of] in C.
      - destruct (Z.leb_spec 0 z); [|discriminate]. injection C as <-. cbn [num_val]. now rewrite Z2N.id.
      - injection C as <-. reflexivity. }
    destruct (v_lt_num (VUns n) b (Fin (IZR (Z.of_N n))) _ L V eq_refl X) as (r & E' & Q). rewrite E in E'. injection E' as <-.
    destruct (N.le_gt_cases k n) as [H|H]; [exact H|]. exfalso. assert (false = true); [|discriminate]. apply Q. cbn [ext_lt]. apply IZR_lt. lia.
  Qed.
  Lemma count_ge n b k : n < 2^64 -> vok b -> count_of b = Some k -> v_gt (VUns n) b = Ok false -> n <= k.
  Proof.
    intros L V C E. assert (exists y, num_val b = Some (Fin (IZR (Z.of_N k))) /\ y = 0) as (y & X & _).
    { exists 0. split; [|reflexivity]. destruct b as [| |z|j| | | | |]; try discriminate; cbn [count_of] in C.
      - destruct (Z.leb_spec 0 z); [|discriminate]. injection C as <-. cbn [num_val]. now rewrite Z2N.id.
      - injection C as <-. reflexivity. }
    destruct (v_gt_num (VUns n) b (Fin (IZR (Z.of_N n))) _ L V eq_refl X) as (r & E' & Q). rewrite E in E'. injection E' as <-.
    destruct (N.le_gt_cases n k) as [H|H]; [exact H|]. exfalso. assert (false = true); [|discriminate]. apply Q. cbn [ext_lt]. apply IZR_lt. lia.
  Qed.
  Lemma count_num b k : count_of b = Some k -> num_val b = Some (Fin (IZR (Z.of_N k))).
  Proof.
    intros C. destruct b as [| |z|j| | | | |]; try discriminate; cbn [count_of] in C.
    - destruct (Z.leb_spec 0 z); [|discriminate]. injection C as <-. cbn [num_val]. now rewrite Z2N.id.
    - injection C as <-. reflexivity.
  Qed.
  Lemma count_least n b k : n < 2^64 -> vok b -> count_of b = Some k -> v_gt b (VUns n) = Ok false -> k <= n.
  Proof.
    intros L V C E. destruct (v_gt_num b (VUns n) _ (Fin (IZR (Z.of_N n))) V L (count_num b k C) eq_refl) as (r & E' & Q). rewrite E in E'. injection E' as <-.
    destruct (N.le_gt_cases k n) as [H|H]; [exact H|]. exfalso. assert (false = true); [|discriminate]. apply Q. cbn [ext_lt]. apply IZR_lt. lia.
  Qed.
  Lemma count_most n b k : n < 2^64 -> vok b -> count_of b = Some k -> v_lt b (VUns n) = Ok false -> n <= k.
  Proof.
    intros L V C E. destruct (v_lt_num b (VUns n) _ (Fin (IZR (Z.of_N n))) V L (count_num b k C) eq_refl) as (r & E' & Q). rewrite E in E'. injection E' as <-.
    destruct (N.le_gt_cases n k) as [H|H]; [exact H|]. exfalso. assert (false = true); [|discriminate]. apply Q. cbn [ext_lt]. apply IZR_lt. lia.
  Qed.
  Lemma wrap32_small n : wrap32 n < 2^64.
  Proof. unfold wrap32. assert (n mod 2^32 < 2^32) by (apply N.mod_lt; discriminate). lia. Qed.
  (** The bounds of a size, given that it lies between them. *)
  Lemma size_go lo hi n m c : (forall b, key lo m = Some b -> vok b /\ exists k, count_of b = Some k /\ k <= n) -> (forall b, key hi m = Some b -> vok b /\ exists k, count_of b = Some k /\ n <= k) ->
    validate_size lo hi n m c = Ok (Go c).
  Proof.
    intros L H. unfold validate_size. assert (E : forall c, (match key lo m with None => Ok (Go c) | Some b => if number b then do k <- as_uns b; if n <? k then add_error c else Ok (Go c) else add_schema_error c end) = Ok (Go c)).
    { intros c'. destruct (key lo m) as [b|]; [|reflexivity]. destruct (L b eq_refl) as (V & k & C & Q). destruct (count_uns b k V C) as [-> ->]. cbn [rbind]. destruct (N.ltb_spec n k); [lia|reflexivity]. }
    rewrite E. cbn [next rbind]. destruct (key hi m) as [b|]; [|reflexivity]. destruct (H b eq_refl) as (V & k & C & Q). destruct (count_uns b k V C) as [-> ->]. cbn [rbind]. destruct (N.ltb_spec k n); [lia|reflexivity].
  Qed.

  (** A schema with the demands of an option. *)
  Record demanding (o : aopt) (m : list (bytes * value)) : Prop := {
    dm_bare : bare m;
    dm_type : key "type" m = match o_type o with NullType => None | t => Some (VStr (type_string t)) end;
    dm_same : forall k, In k ["minimum"; "maximum"; "minLength"; "maxLength"; "pattern"; "enum"]%string -> key k m = mget (s2b k) (o_opt o);
    dm_items : key "items" m = None /\ key "minItems" m = None /\ key "maxItems" m = None }.
  Lemma demanding_go sub o m v c : sound rx o -> demanding o m -> vok v -> suits (o_type o) v -> meets rx o v -> validate_map rx get_schema sub m v c = Ok (Go c).
  Proof.
    intros S [B T D (I1 & I2 & I3)] V SU M. apply leaf_go; [exact B| | | | |apply array_absent; auto].
    - unfold validate_type. rewrite T. destruct (o_type o) eqn:Y; [reflexivity|..];
        (assert (IT := s_type _ _ S); rewrite Y in IT; apply type_suits; [|exact SU]; cbn in IT |- *; intuition discriminate).
    - unfold validate_enum. rewrite (D "enum"%string) by (cbn; tauto). destruct (mget (s2b "enum") (o_opt o)) as [e|] eqn:E; [|reflexivity].
      destruct (m_enum _ _ _ M e E) as (l1 & x & l2 & -> & Q & _). rewrite (enum_in v l1 x l2 V (s_enum _ _ S _ E) Q). reflexivity.
    - unfold validate_numeric. destruct (number v) eqn:NV; [|reflexivity]. unfold validate_multiple. rewrite (B "multipleOf"%string), (B "divisibleBy"%string) by (cbn; tauto). cbn [next rbind].
      assert (NU : (exists z, v = VInt z) \/ (exists n, v = VUns n) \/ (exists x, v = VFlt x)) by (destruct v; try discriminate; eauto).
      unfold validate_minmax, validate_bound. rewrite (D "minimum"%string), (D "maximum"%string), (B "exclusiveMinimum"%string), (B "exclusiveMaximum"%string) by (cbn; tauto).
      destruct (mget (s2b "minimum") (o_opt o)) as [b|] eqn:E1; [assert (number b = true) as -> by (destruct (s_bound _ _ S "minimum"%string b) as [[? ->] | [[? ->] | [? ->]]]; cbn; auto); rewrite (m_min _ _ _ M b NU E1)|];
      cbn [next rbind];
      (destruct (mget (s2b "maximum") (o_opt o)) as [b'|] eqn:E2; [assert (number b' = true) as -> by (destruct (s_bound _ _ S "maximum"%string b') as [[? ->] | [[? ->] | [? ->]]]; cbn; auto); rewrite (m_max _ _ _ M b' NU E2)|]; reflexivity).
    - unfold validate_string. destruct v as [| | | | |s| | |]; try reflexivity. rewrite size_go.
      + cbn [next rbind]. unfold validate_pattern. rewrite (D "pattern"%string) by (cbn; tauto). destruct (mget (s2b "pattern") (o_opt o)) as [p|] eqn:E.
        * destruct (s_pattern _ _ S p E) as [t ->]. destruct (m_pattern _ _ _ M s _ eq_refl E) as (t' & f & [= <-] & F & Q). rewrite F, Q. cbn [next rbind].
          unfold validate_format. rewrite (B "format"%string) by (cbn; tauto). reflexivity.
        * cbn [next rbind]. unfold validate_format. rewrite (B "format"%string) by (cbn; tauto). reflexivity.
      + intros b E. rewrite (D "minLength"%string) in E by (cbn; tauto). destruct (s_size _ _ S "minLength"%string b) as [VB CB]; [cbn; tauto|exact E|].
        destruct (count_of b) as [k|] eqn:CK; [|congruence]. split; [exact VB|]. exists k. split; [reflexivity|]. apply (count_le _ b); auto using wrap32_small. exact (m_short _ _ _ M s b eq_refl E).
      + intros b E. rewrite (D "maxLength"%string) in E by (cbn; tauto). destruct (s_size _ _ S "maxLength"%string b) as [VB CB]; [cbn; tauto|exact E|].
        destruct (count_of b) as [k|] eqn:CK; [|congruence]. split; [exact VB|]. exists k. split; [reflexivity|]. apply (count_ge _ b); auto using wrap32_small. exact (m_long _ _ _ M s b eq_refl E).
  Qed.

  (** The heads of the schemas of options. *)
  Definition head (o : aopt) : list (bytes * value) := fold_left (copy_key o) ["title"; "description"]%string [].
  Lemma head_sorted o : msorted (head o). Proof. unfold head. cbn [fold_left]. repeat apply copy_sorted. exact I. Qed.
  Lemma head_get o k : beqb k (s2b "title") = false -> beqb k (s2b "description") = false -> mget k (head o) = None.
  Proof. intros A B. unfold head. cbn [fold_left]. rewrite !copy_get by (repeat apply copy_sorted; exact I). rewrite A, B. reflexivity. Qed.
  Lemma demands_demanding o s : msorted s -> (forall k, In k (never ++ ["type"; "minimum"; "maximum"; "minLength"; "maxLength"; "pattern"; "enum"; "items"; "minItems"; "maxItems"]%string) -> key k s = None) -> demanding o (demands o s).
  Proof.
    intros SS N. constructor.
    - intros k I. unfold key. rewrite demands_get by auto. assert (K := N k). unfold key in K. cbn [never In] in I.
      repeat (destruct I as [<- | I]; [vm_compute beqb; cbn [existsb]; vm_compute orb; cbv iota; apply K; cbn; tauto|]). destruct I.
    - unfold key. rewrite demands_get by auto. vm_compute (beqb _ _). cbv iota. fold (key "type" s). rewrite (N "type"%string) by (cbn; tauto). destruct (o_type o); reflexivity.
    - intros k I. unfold key. rewrite demands_get by auto. assert (K := N k). unfold key in K. cbn [In] in I.
      repeat (destruct I as [<- | I]; [vm_compute beqb; cbn [existsb]; vm_compute orb; cbv iota; rewrite K by (cbn; tauto); now destruct (mget _ (o_opt o))|]). destruct I.
    - unfold key. rewrite !demands_get by auto. split; [|split]; vm_compute beqb; cbn [existsb]; vm_compute orb; cbv iota; apply (N _); cbn; tauto.
  Qed.
End Leaf.

(** What the value of an option is like. *)
Definition shown (rx : bytes -> option (bytes -> bool)) (o : aopt) (w : value) : Prop :=
  match o_action o with
  | AStore => suits (o_type o) w /\ meets rx o w
  | AStoreConst => exists c, mget (s2b "const") (o_opt o) = Some c /\ v_eq c w = Ok true
  | AStoreTrue | AStoreFalse => exists b, w = VBool b
  | AAppend => exists l, w = VList l /\ Forall (fun x => suits (o_type o) x /\ meets rx o x) l /\
      (forall m, mget (s2b "maxArgs") (o_opt o) = Some m -> v_ne m (VInt 0) = Ok true -> v_lt m (VUns (wrap32 (llen l))) = Ok false) /\
      (forall m, mget (s2b "minArgs") (o_opt o) = Some m -> v_gt m (VUns (wrap32 (llen l))) = Ok false)
  | ACount => exists n, w = VUns n
  | _ => False
  end.
Lemma reads_suits flt stale t s v : In t [NullType; BoolType; IntegerType; UnsignedType; FloatType; StringType] -> reads flt stale t s v -> suits t v.
Proof.
  intros T R. cbn in T. destruct T as [<- | [<- | [<- | [<- | [<- | [<- | []]]]]]]; cbn [reads] in R.
  - exact I.
  - subst v. exact I.
  - destruct R as (neg & m & _ & [[_ ->] | [[_ ->] | [[_ ->] | [_ ->]]]]); try exact I. now destruct (stale s).
  - destruct R as (neg & m & _ & [[_ ->] | [_ ->]]); exact I.
  - destruct R as (x & _ & ->). exact I.
  - subst v. exact I.
Qed.
Lemma taken_suits flt stale rx o l vs : sound rx o -> o_action o = AStore \/ o_action o = AAppend -> Forall2 (taken flt stale o) l vs -> Forall (fun v => suits (o_type o) v) vs.
Proof.
  intros S T F. induction F as [|a v l vs TK F IH]; constructor; auto. unfold taken in TK.
  assert (exists s, reads flt stale (o_type o) s v) as [s R] by (destruct T as [T | T]; rewrite T in TK; destruct TK as (s & _ & R); eauto).
  eapply reads_suits; [apply (s_type _ _ S)|exact R].
Qed.
Lemma Forall_last {T} (P : T -> Prop) l x : Forall P l -> l <> [] -> P (last l x).
Proof. induction 1 as [|y l PY F IH]; intros NE; [congruence|]. destruct l; [exact PY|]. apply IH. discriminate. Qed.
Lemma result_shown flt rx env load stale d fuel evs rest st o : P_ArgParse.plain d -> NoDup (List.map o_id (d_opts d)) ->
  a_run flt rx env load stale d fuel evs rest a_init = Done st -> In o (d_opts d) -> sound rx o -> vok (a_res st (o_id o)) -> a_res st (o_id o) <> VNull -> shown rx o (a_res st (o_id o)).
Proof.
  intros PL ND E IO S V NN. destruct (C52_values_partial _ _ _ _ _ _ _ _ _ _ PL ND E) as (shares & _ & H).
  destruct (H o IO) as (vs & TK & ME & A1 & A2 & _ & _ & A3 & A4). clear H.
  assert (SM : {summary o vs = VNull} + {summary o vs <> VNull}) by (destruct (summary o vs); [left; reflexivity|right; discriminate..]).
  unfold shown. destruct SM as [SN | SN].
  - destruct (A2 SN) as [N | (v & ST & DF & R)]; [congruence|]. assert (SD := s_default _ _ S v DF). rewrite R in *. unfold defaulted in *.
    unfold storing in ST. destruct (o_action o) eqn:AC; cbn in ST; try (intuition discriminate); try exact SD.
    exists [v]. split; [reflexivity|]. split; [auto|]. split; [intros m; now apply A3|intros m; now apply A4].
  - rewrite (A1 SN) in *. unfold summary in *. destruct (o_action o) eqn:AC; try congruence.
    + assert (NE : vs <> []) by (intros ->; now apply SN). split.
      * apply Forall_last; [|exact NE]. eapply taken_suits; eauto.
      * apply Forall_last; [|exact NE]. auto.
    + destruct vs; [congruence|]. destruct (mget (s2b "const") (o_opt o)) as [c|]; [|congruence]. exists c. split; [reflexivity|]. apply (C18_reflexive_symmetric c c V V).
    + destruct vs; [congruence|]. eauto.
    + destruct vs; [congruence|]. eauto.
    + destruct vs as [|v vs]; [congruence|]. exists (v :: vs). split; [reflexivity|]. split.
      * assert (F1 : Forall (fun v => suits (o_type o) v) (v :: vs)) by (eapply taken_suits; eauto). specialize (ME (or_intror eq_refl)).
        rewrite Forall_forall in *. auto.
      * split; [intros m; now apply A3|intros m; now apply A4].
    + eauto.
Qed.

Section LeafOk.
  Variable rx : bytes -> option (bytes -> bool).
  Variable get_schema : bytes -> res value.
  (** The schema accepts the value with two levels to go. *)
  Definition passes (s v : value) : Prop := forall f dep c, (2 <= f)%nat -> dep + 2 <= 100 -> validate rx get_schema f dep s v c = Ok (Go c).
  Lemma passes_map m v : (forall f dep c, (1 <= f)%nat -> dep + 2 <= 101 -> validate_map rx get_schema (validate rx get_schema f dep) m v c = Ok (Go c)) -> passes (VMap m) v.
  Proof.
    intros H f dep c F L. destruct f as [|f]; [lia|]. cbn [validate]. unfold RECURSION_LIMIT. destruct (N.ltb_spec 100 (dep + 1)); [lia|]. apply H; lia.
  Qed.
  Ltac keyed := intros k I; unfold key; rewrite ?mget_mset by auto using copy_sorted, demands_sorted, head_sorted, msorted_mset;
    cbn [never In] in I; repeat (destruct I as [<- | I]; [vm_compute (beqb _ _); cbv iota; try apply head_get; reflexivity|]); destruct I.
  Lemma leaf_ok o leaf w : sound rx o -> gen_leaf o = Ok leaf -> vok w -> shown rx o w -> key "properties" leaf = None /\ passes (VMap leaf) w.
  Proof.
    intros S G V H. unfold gen_leaf in G. fold (head o) in G. assert (HS := head_sorted o). unfold shown in H. destruct (o_action o) eqn:AC; try contradiction.
    - injection G as <-. assert (D : demanding o (demands o (head o))).
      { apply demands_demanding; [exact HS|]. intros k I. cbn [never app In] in I. unfold key. repeat (destruct I as [<- | I]; [apply head_get; reflexivity|]). destruct I. }
      assert (D' : demanding o (copy_key o (demands o (head o)) "default")).
      { destruct D as [B T SA (I1 & I2 & I3)]. assert (K : forall k, beqb (s2b k) (s2b "default") = false -> key k (copy_key o (demands o (head o)) "default") = key k (demands o (head o))).
        { intros k NB. unfold key. rewrite copy_get by auto using demands_sorted. now rewrite NB. }
        constructor.
        - intros k I. rewrite K; [auto|]. cbn [never In] in I. repeat (destruct I as [<- | I]; [reflexivity|]). destruct I.
        - now rewrite K.
        - intros k I. rewrite K; [auto|]. cbn [In] in I. repeat (destruct I as [<- | I]; [reflexivity|]). destruct I.
        - now rewrite !K. }
      split; [apply (dm_bare _ _ D'); cbn; tauto|]. apply passes_map. intros. destruct H. now apply (demanding_go rx get_schema _ o).
    - destruct (akey "const" o) as [c|] eqn:KC; [|discriminate]. injection G as <-. unfold akey in KC. destruct H as (c' & C' & Q). rewrite KC in C'. injection C' as <-.
      assert (B : bare (mset (s2b "enum") (VList [c]) (head o))) by keyed.
      assert (K : forall k, beqb (s2b k) (s2b "enum") = false -> key k (mset (s2b "enum") (VList [c]) (head o)) = key k (head o)) by (intros k NB; unfold key; rewrite mget_mset by auto; now rewrite NB).
      split; [apply B; cbn; tauto|]. apply passes_map. intros f dep cx _ _. apply leaf_go; [exact B| | | | |].
      + unfold validate_type. rewrite K by reflexivity. unfold key. now rewrite head_get.
      + unfold validate_enum, key. rewrite mget_mset by auto. rewrite beqb_refl. cbn [enum_loop].
        assert (comparable c w = true) as -> by (assert (Z := eq_comparable _ _ Q); unfold comparable in *; destruct c, w; auto). rewrite Q. reflexivity.
      + apply numeric_absent; [exact B|rewrite K by reflexivity; now apply head_get..].
      + apply (string_absent rx get_schema); [exact B|rewrite K by reflexivity; now apply head_get..].
      + apply array_absent; [exact B|rewrite K by reflexivity; now apply head_get..].
    - injection G as <-. destruct H as [b ->]. set (m := copy_key _ _ _).
      assert (K : forall k, beqb (s2b k) (s2b "default") = false -> key k m = if beqb (s2b k) (s2b "type") then Some (VStr (s2b "boolean")) else key k (head o)).
      { intros k NB. unfold m, key. rewrite copy_get by auto using msorted_mset. rewrite NB, mget_mset by auto. reflexivity. }
      assert (B : bare m) by (intros k I; cbn [never In] in I; repeat (destruct I as [<- | I]; [rewrite K by reflexivity; vm_compute (beqb _ _); cbv iota; now apply head_get|]); destruct I).
      split; [apply B; cbn; tauto|]. apply passes_map. intros f dep cx _ _. apply leaf_go; [exact B| | | | |]; try reflexivity.
      + unfold validate_type. rewrite K by reflexivity. reflexivity.
      + unfold validate_enum. rewrite K by reflexivity. vm_compute (beqb _ _). cbv iota. unfold key. now rewrite head_get.
    - injection G as <-. destruct H as [b ->]. set (m := copy_key _ _ _).
      assert (K : forall k, beqb (s2b k) (s2b "default") = false -> key k m = if beqb (s2b k) (s2b "type") then Some (VStr (s2b "boolean")) else key k (head o)).
      { intros k NB. unfold m, key. rewrite copy_get by auto using msorted_mset. rewrite NB, mget_mset by auto. reflexivity. }
      assert (B : bare m) by (intros k I; cbn [never In] in I; repeat (destruct I as [<- | I]; [rewrite K by reflexivity; vm_compute (beqb _ _); cbv iota; now apply head_get|]); destruct I).
      split; [apply B; cbn; tauto|]. apply passes_map. intros f dep cx _ _. apply leaf_go; [exact B| | | | |]; try reflexivity.
      + unfold validate_type. rewrite K by reflexivity. reflexivity.
      + unfold validate_enum. rewrite K by reflexivity. vm_compute (beqb _ _). cbv iota. unfold key. now rewrite head_get.
    - destruct H as (l & -> & F & MX & MN). cbv zeta in G. set (m0 := match akey "default" o with Some v => _ | None => _ end) in G.
      assert (S0 : msorted m0) by (subst m0; destruct (akey "default" o); auto using msorted_mset).
      assert (K0 : forall k, beqb (s2b k) (s2b "default") = false -> key k m0 = key k (head o)).
      { intros k NB. subst m0. destruct (akey "default" o); auto. unfold key. rewrite mget_mset by auto. now rewrite NB. }
      set (m1 := mset (s2b "items") (VMap (demands o [])) m0) in G. assert (S1 : msorted m1) by (apply msorted_mset, S0).
      apply P_ArgParse.bind_ok in G. destruct G as (m2 & G2 & G3).
      assert (C : forall from to m m' , msorted m -> copy_positive o from to m = Ok m' -> msorted m' /\ forall k, key k m' = key k m \/ k = to /\ (exists b, mget (s2b from) (o_opt o) = Some b /\ v_gt b (VInt 0) = Ok true /\ key k m' = Some b) \/ beqb (s2b k) (s2b to) = true /\ k <> to).
      { intros from to m m' SM CP. unfold copy_positive, akey in CP. destruct (mget (s2b from) (o_opt o)) as [b|] eqn:FB; [|injection CP as <-; auto].
        apply P_ArgParse.bind_ok in CP. destruct CP as ([|] & GT & CP); injection CP as <-; [|auto]. split; [now apply msorted_mset|]. intros k. unfold key. rewrite mget_mset by auto.
        destruct (beqb (s2b k) (s2b to)) eqn:BB; [|auto]. destruct (String.string_dec k to) as [-> | NE]; [|right; right; auto]. right. left. split; [reflexivity|]. exists b. auto. }
      destruct (C _ _ _ _ S1 G2) as [S2 C2]. destruct (C _ _ _ _ S2 G3) as [S3 C3]. clear C.
      assert (K1 : forall k, ~ In k ["minItems"; "maxItems"]%string -> beqb (s2b k) (s2b "minItems") = false -> beqb (s2b k) (s2b "maxItems") = false -> key k leaf = key k m1).
      { intros k NI N1 N2. destruct (C3 k) as [-> | [(-> & _) | [Q _]]]; [|cbn in NI; tauto|congruence]. destruct (C2 k) as [-> | [(-> & _) | [Q _]]]; [reflexivity|cbn in NI; tauto|congruence]. }
      assert (K2 : forall k, ~ In k ["minItems"; "maxItems"]%string -> beqb (s2b k) (s2b "minItems") = false -> beqb (s2b k) (s2b "maxItems") = false -> beqb (s2b k) (s2b "items") = false -> beqb (s2b k) (s2b "default") = false -> key k leaf = key k (head o)).
      { intros k A1 A2 A3 A4 A5. rewrite K1 by auto. unfold m1, key. rewrite mget_mset by auto. rewrite A4. now apply K0. }
      assert (HB : forall k, In k (never ++ ["type"; "enum"; "minimum"; "maximum"; "minLength"; "maxLength"; "pattern"]%string) -> key k leaf = None).
      { intros k I. cbn [never app In] in I. repeat (destruct I as [<- | I]; [rewrite K2 by (reflexivity || (cbn; intuition discriminate)); now apply head_get|]). destruct I. }
      assert (B : bare leaf) by (intros k I; apply HB, in_or_app; now left).
      split; [apply B; cbn; tauto|]. apply passes_map. intros f dep cx LF LD. apply leaf_go; [exact B| | |reflexivity|reflexivity|].
      + unfold validate_type. now rewrite HB by (cbn; tauto).
      + unfold validate_enum. now rewrite HB by (cbn; tauto).
      + unfold validate_array. rewrite size_go.
        * cbn [next rbind]. unfold validate_unique. rewrite (B "uniqueItems"%string) by (cbn; tauto). cbn [next rbind]. unfold validate_items.
          assert (KI : key "items" leaf = Some (VMap (demands o []))) by (rewrite K1 by (reflexivity || (cbn; intuition discriminate)); unfold m1, key; rewrite mget_mset by auto; now rewrite beqb_refl).
          rewrite KI. assert (FW : Forall (fun x => vok x /\ suits (o_type o) x /\ meets rx o x) (counted l)).
          { assert (FV : Forall vok l) by (clear -V; cbn [vok] in V; induction l as [|x l IH]; [constructor|destruct V; constructor; auto]).
            rewrite Forall_forall in *. intros x IX. unfold counted, take in IX. assert (IL : In x l) by (rewrite <- (firstn_skipn (N.to_nat (wrap32 (llen l))) l); apply in_or_app; now left). auto. }
          clear -FW S LF LD. assert (D : demanding o (demands o [])) by (apply demands_demanding; [exact I|reflexivity]).
          revert cx. induction FW as [|x t (VX & SX & MX) F IH]; intros cx; cbn [each]; [reflexivity|].
          assert (validate rx get_schema f dep (VMap (demands o [])) x cx = Ok (Go cx)) as ->; [|exact (IH cx)].
          destruct f as [|f]; [lia|]. cbn [validate]. unfold RECURSION_LIMIT. destruct (N.ltb_spec 100 (dep + 1)); [lia|]. now apply (demanding_go rx get_schema _ o).
        * intros b KB. destruct (C3 "minItems"%string) as [Q | [(Q & _) | [Q _]]]; [rewrite Q in KB|discriminate|discriminate].
          destruct (C2 "minItems"%string) as [Q2 | [(_ & b' & FB & _ & Q2) | [_ Q2]]]; [|rewrite Q2 in KB; injection KB as ->|congruence].
          { exfalso. rewrite Q2 in KB. unfold m1, key in KB. rewrite mget_mset in KB by auto. vm_compute (beqb _ _) in KB. cbv iota in KB. fold (key "minItems" m0) in KB. rewrite K0 in KB by reflexivity. unfold key in KB. rewrite head_get in KB by reflexivity. discriminate. }
          destruct (s_size _ _ S "minArgs"%string b) as [VB CB]; [cbn; tauto|exact FB|]. destruct (count_of b) as [k|] eqn:CK; [|congruence].
          split; [exact VB|]. exists k. split; [reflexivity|]. apply (count_least _ b); auto using wrap32_small.
        * intros b KB. destruct (C3 "maxItems"%string) as [Q | [(_ & b' & FB & GT & Q) | [_ Q]]]; [|rewrite Q in KB; injection KB as ->|congruence].
          { exfalso. rewrite Q in KB. destruct (C2 "maxItems"%string) as [Q2 | [(Q2 & _) | [Q2 _]]]; [rewrite Q2 in KB|discriminate|discriminate].
            unfold m1, key in KB. rewrite mget_mset in KB by auto. vm_compute (beqb _ _) in KB. cbv iota in KB. fold (key "maxItems" m0) in KB. rewrite K0 in KB by reflexivity. unfold key in KB. rewrite head_get in KB by reflexivity. discriminate. }
          destruct (s_size _ _ S "maxArgs"%string b) as [VB CB]; [cbn; tauto|exact FB|]. destruct (count_of b) as [k|] eqn:CK; [|congruence].
          split; [exact VB|]. exists k. split; [reflexivity|]. apply (count_most _ b); auto using wrap32_small. apply MX; [exact FB|].
          unfold v_gt in GT. unfold v_ne. destruct (vcompare b (VInt 0)) as [z| | | |]; try discriminate. cbn [rbind] in *. assert (Z.gtb z 0 = true) as LT by congruence.
          destruct (Z.eqb_spec z 0) as [-> |]; [discriminate|reflexivity].
    - destruct H as [n ->]. set (m := mset (s2b "minimum") (VInt 0) (mset (s2b "type") (VStr (s2b "integer")) (head o))) in G. assert (leaf = m) as -> by congruence.
      assert (K : forall k, key k m = if beqb (s2b k) (s2b "minimum") then Some (VInt 0) else if beqb (s2b k) (s2b "type") then Some (VStr (s2b "integer")) else key k (head o)).
      { intros k. unfold m, key. rewrite !mget_mset by auto using msorted_mset. reflexivity. }
      assert (B : bare m) by (intros k I; cbn [never In] in I; repeat (destruct I as [<- | I]; [rewrite K; vm_compute (beqb _ _); cbv iota; now apply head_get|]); destruct I).
      split; [apply B; cbn; tauto|]. apply passes_map. intros f dep cx _ _. apply leaf_go; [exact B| | | |reflexivity|reflexivity].
      + unfold validate_type. rewrite K. reflexivity.
      + unfold validate_enum. rewrite K. vm_compute (beqb _ _). cbv iota. unfold key. now rewrite head_get.
      + unfold validate_numeric. cbn [number type_of is_num]. unfold validate_multiple. rewrite (B "multipleOf"%string), (B "divisibleBy"%string) by (cbn; tauto). cbn [next rbind].
        unfold validate_minmax, validate_bound. rewrite (B "exclusiveMinimum"%string), (B "exclusiveMaximum"%string) by (cbn; tauto).
        rewrite !K. vm_compute (beqb _ _). cbv iota. change (number (VInt 0)) with true. cbv iota. unfold key. rewrite head_get by reflexivity.
        assert (V0 : vok (VInt 0)) by (cbn; lia).
        destruct (v_lt_num (VUns n) (VInt 0) _ _ V V0 eq_refl eq_refl) as ([|] & -> & Q); [|reflexivity]. exfalso. assert (LT := proj1 Q eq_refl). cbn [ext_lt] in LT. apply lt_IZR in LT. lia.
  Qed.
End LeafOk.

(** ** Proof: the schemas on the way *)
(** Neither list of keys leads through the other. *)
Fixpoint apart (a b : list bytes) : Prop :=
  match a, b with k :: a, k' :: b => if beqb k k' then apart a b else True | _, _ => False end.
Definition keys (ks : list bytes) : path := List.map PKey ks.
Lemma diverge_apart a : forall b, diverge (keys a) (keys b) -> apart a b.
Proof.
  induction a as [|k a IH]; intros [|k' b] D; cbn [keys List.map] in D; [destruct (diverge_nil _ D)|destruct (diverge_nil _ D)|destruct (diverge_nil_r _ D)|].
  cbn [apart]. destruct (beqb k k') eqn:B; [|exact I]. apply beqb_eq in B. subst k'. apply diverge_cons in D. destruct D as [[_ D] | N]; [now apply IH|congruence].
Qed.
(** A schema of objects with these properties, in which these keys are required. *)
Record objs (m ps : list (bytes * value)) (rq : list value) : Prop := {
  ob_sorted : msorted m; ob_ps : msorted ps;
  ob_type : key "type" m = Some (VStr (s2b "object"));
  ob_props : key "properties" m = Some (VMap ps);
  ob_req : match key "required" m with None => rq = [] | Some v => v = VList rq end;
  ob_str : Forall (fun x => exists k, x = VStr k) rq;
  ob_rest : forall k, ~ In k (List.map s2b ["type"; "properties"; "required"; "allOf"]%string) -> mget k m = None }.
Fixpoint shape (s : value) (ks : list bytes) : Prop :=
  match ks with
  | [] => True
  | k :: ks => s = VMap [] \/ exists m ps rq, s = VMap m /\ objs m ps rq /\ match mget k ps with None => True | Some s' => shape s' ks end
  end.
Lemma existsb_str k rq : Forall (fun x => exists k, x = VStr k) rq ->
  existsb (fun x => match v_eq x (VStr k) with Ok true => true | _ => false end) rq = true <-> In (VStr k) rq.
Proof.
  intros F. rewrite existsb_exists. rewrite Forall_forall in F. split.
  - intros (x & IX & E). destruct (F x IX) as [k' ->]. rewrite v_eq_str in E. destruct (beqb k' k) eqn:B; [|discriminate]. apply beqb_eq in B. now subst.
  - intros IX. exists (VStr k). split; [exact IX|]. rewrite v_eq_str, beqb_refl. reflexivity.
Qed.
Lemma gen_objs s k ks req leaf : s = VMap [] \/ (exists m ps rq, s = VMap m /\ objs m ps rq) ->
  exists m0 ps rq m' rq', (s = VMap [] /\ m0 = [] /\ ps = [] /\ rq = [] \/ s = VMap m0 /\ objs m0 ps rq) /\
    gen_at s (k :: ks) req leaf = VMap m' /\
    objs m' (mset k (gen_at (match mget k ps with Some s' => s' | None => VMap [] end) ks req leaf) ps) rq' /\
    (forall x, In (VStr x) rq' <-> In (VStr x) rq \/ req = true /\ x = k) /\ key "allOf" m' = key "allOf" m0.
Proof.
  intros H. assert (exists m1 m0 ps rq, (s = VMap [] /\ m0 = [] /\ ps = [] /\ rq = [] \/ s = VMap m0 /\ objs m0 ps rq) /\
    (let m := match s with VMap m => m | _ => [] end in match mget (s2b "type") m with Some _ => m | None => mset (s2b "type") (VStr (s2b "object")) m end) = m1 /\
    msorted m1 /\ msorted ps /\ key "type" m1 = Some (VStr (s2b "object")) /\ match mget (s2b "properties") m1 with Some (VMap ps) => ps | _ => [] end = ps /\
    match mget (s2b "required") m1 with Some (VList l) => l | _ => [] end = rq /\ match key "required" m1 with None => rq = [] | Some v => v = VList rq end /\
    Forall (fun x => exists k, x = VStr k) rq /\ (forall k, ~ In k (List.map s2b ["type"; "properties"; "required"; "allOf"]%string) -> mget k m1 = None) /\ key "allOf" m1 = key "allOf" m0) as
    (m1 & m0 & ps & rq & C & M1 & S1 & SP & T1 & P1 & Q1 & R1 & F1 & O1 & A1).
  { destruct H as [-> | (m & ps & rq & -> & OB)].
    - exists [(s2b "type", VStr (s2b "object"))], [], [], []. split; [left; auto|]. split; [reflexivity|].
      split; [split; [intros ? []|exact I]|]. split; [exact I|]. split; [reflexivity|]. split; [reflexivity|]. split; [reflexivity|]. split; [reflexivity|]. split; [constructor|].
      split; [|reflexivity]. intros x N. cbn [mget]. destruct (beqb x (s2b "type")) eqn:B; [|reflexivity]. apply beqb_eq in B. exfalso. apply N. left. now symmetry.
    - exists m, m, ps, rq. destruct OB as [S SP T P R F O]. split; [right; split; [reflexivity|constructor; auto]|]. unfold key in *. rewrite T, P. split; [reflexivity|].
      split; [exact S|]. split; [exact SP|]. split; [reflexivity|]. split; [reflexivity|]. split; [destruct (mget (s2b "required") m); subst; reflexivity|]. auto. }
  assert (G : exists m' rq', gen_at s (k :: ks) req leaf = VMap m' /\
    objs m' (mset k (gen_at (match mget k ps with Some s' => s' | None => VMap [] end) ks req leaf) ps) rq' /\ (forall x, In (VStr x) rq' <-> In (VStr x) rq \/ req = true /\ x = k) /\ key "allOf" m' = key "allOf" m1).
  { cbn [gen_at]. cbv zeta in M1. cbv zeta. rewrite M1, P1, Q1.
    set (rq' := if existsb _ rq then rq else rq ++ [VStr k]). set (x := gen_at _ ks req leaf).
    assert (RQ : Forall (fun x => exists k, x = VStr k) rq' /\ forall x, In (VStr x) rq' <-> In (VStr x) rq \/ x = k).
    { subst rq'. destruct (existsb _ rq) eqn:EX.
      - split; [exact F1|]. apply (existsb_str k rq F1) in EX. intros y. split; [auto|]. intros [IY | ->]; auto.
      - split; [apply Forall_app; split; [exact F1|repeat constructor; eauto]|]. intros y. rewrite in_app_iff. cbn [In]. split; [intros [IY | [[= <-] | []]]; auto|intros [IY | ->]; auto]. }
    destruct req.
    - exists (mset (s2b "properties") (VMap (mset k x ps)) (mset (s2b "required") (VList rq') m1)), rq'. split; [reflexivity|].
      assert (K : forall y, mget y (mset (s2b "properties") (VMap (mset k x ps)) (mset (s2b "required") (VList rq') m1)) =
        if beqb y (s2b "properties") then Some (VMap (mset k x ps)) else if beqb y (s2b "required") then Some (VList rq') else mget y m1).
      { intros y. rewrite !mget_mset by auto using msorted_mset. reflexivity. }
      split; [constructor|split; [intros y; rewrite (proj2 RQ y); intuition|]].
      + auto using msorted_mset.
      + auto using msorted_mset.
      + unfold key. rewrite K. exact T1.
      + unfold key. rewrite K. reflexivity.
      + unfold key. rewrite K. reflexivity.
      + apply RQ.
      + intros y N. rewrite K. destruct (beqb y (s2b "properties")) eqn:B1; [apply beqb_eq in B1; subst; exfalso; apply N; cbn; tauto|]. destruct (beqb y (s2b "required")) eqn:B2; [apply beqb_eq in B2; subst; exfalso; apply N; cbn; tauto|]. auto.
      + unfold key. rewrite K. reflexivity.
    - exists (mset (s2b "properties") (VMap (mset k x ps)) m1), rq. split; [reflexivity|].
      assert (K : forall y, mget y (mset (s2b "properties") (VMap (mset k x ps)) m1) = if beqb y (s2b "properties") then Some (VMap (mset k x ps)) else mget y m1).
      { intros y. rewrite mget_mset by auto. reflexivity. }
      split; [constructor|split; [intros y; intuition discriminate|]].
      + auto using msorted_mset.
      + auto using msorted_mset.
      + unfold key. rewrite K. exact T1.
      + unfold key. rewrite K. reflexivity.
      + unfold key. rewrite K. exact R1.
      + exact F1.
      + intros y N. rewrite K. destruct (beqb y (s2b "properties")) eqn:B1; [apply beqb_eq in B1; subst; exfalso; apply N; cbn; tauto|]. auto.
      + unfold key. rewrite K. reflexivity. }
  destruct G as (m' & rq' & G & OB & RQ & AL). exists m0, ps, rq, m', rq'. rewrite AL, A1. auto 10.
Qed.
Lemma objs_same m ps rq ps' rq' : objs m ps rq -> objs m ps' rq' -> ps = ps' /\ rq = rq'.
Proof.
  intros A B. assert (X := ob_props _ _ _ A). rewrite (ob_props _ _ _ B) in X. split; [congruence|].
  assert (Y := ob_req _ _ _ A). assert (Z := ob_req _ _ _ B). destruct (key "required" m); [congruence|]. now subst.
Qed.
Lemma shape_cons s k ks : shape s (k :: ks) -> s = VMap [] \/ exists m ps rq, s = VMap m /\ objs m ps rq.
Proof. intros [-> | (m & ps & rq & -> & OB & _)]; [now left|]. right. eauto. Qed.
Lemma shape_nil ks : shape (VMap []) ks. Proof. destruct ks; cbn [shape]; auto. Qed.
(** Writing one option leaves the way of another free. *)
Lemma shape_kept ks : forall s ks' req leaf, shape s ks -> shape s ks' -> apart ks ks' -> shape (gen_at s ks req leaf) ks'.
Proof.
  induction ks as [|k ks IH]; intros s ks' req leaf H H' AP; [destruct ks'; destruct AP|]. destruct ks' as [|k' ks']; [destruct AP|]. cbn [apart] in AP.
  destruct (gen_objs s k ks req leaf (shape_cons _ _ _ H)) as (m0 & ps & rq & m' & rq' & C & -> & OB & _). cbn [shape]. right. eexists m', _, rq'. split; [reflexivity|]. split; [exact OB|].
  rewrite mget_mset by (destruct C as [(_ & _ & -> & _) | [_ C]]; [exact I|apply C]).
  destruct (beqb k' k) eqn:B.
  - apply beqb_eq in B. subst k'. rewrite beqb_refl in AP. apply IH; [..|exact AP]; destruct C as [(-> & -> & -> & ->) | [-> C]]; cbn [mget]; try apply shape_nil.
    + destruct H as [E | (m1 & ps1 & rq1 & [= <-] & OB1 & H)]; [injection E as ->; exfalso; assert (X := ob_type _ _ _ C); discriminate|]. destruct (objs_same _ _ _ _ _ C OB1) as [<- _]. destruct (mget k ps); [exact H|apply shape_nil].
    + destruct H' as [E | (m1 & ps1 & rq1 & [= <-] & OB1 & H')]; [injection E as ->; exfalso; assert (X := ob_type _ _ _ C); discriminate|]. destruct (objs_same _ _ _ _ _ C OB1) as [<- _]. destruct (mget k ps); [exact H'|apply shape_nil].
  - destruct C as [(-> & -> & -> & ->) | [-> C]]; [exact I|].
    destruct H' as [E | (m1 & ps1 & rq1 & [= <-] & OB1 & H')]; [injection E as ->; exfalso; assert (X := ob_type _ _ _ C); discriminate|]. destruct (objs_same _ _ _ _ _ C OB1) as [<- _]. exact H'.
Qed.
(** The way is free in a value: what is there are maps. *)
Fixpoint mapped (v : value) (ks : list bytes) : Prop :=
  match ks with [] => True | k :: ks => exists m, v = VMap m /\ match mget k m with None => True | Some w => mapped w ks end end.
Lemma mapped_nil ks : mapped (VMap []) ks. Proof. destruct ks as [|k ks]; [exact I|]. exists []. split; [reflexivity|exact I]. Qed.
Lemma mapped_set q : forall v ks x v', vsorted v -> v = VNull \/ mapped v ks -> apart q ks -> vset v (keys q) x = Some v' -> mapped v' ks.
Proof.
  induction q as [|k q IH]; intros v ks x v' SV M AP E; [destruct ks; destruct AP|]. destruct ks as [|k' ks]; [destruct AP|]. cbn [apart] in AP. cbn [keys List.map vset] in E.
  fold (keys q) in E. fold (vnow v (PKey k)) in E. destruct (vset (vnow v (PKey k)) (keys q) x) as [w'|] eqn:W; [|discriminate].
  destruct M as [-> | (m & -> & M)]; cbn [vset_elem] in E; injection E as <-; cbn [mapped].
  - exists [(k, w')]. split; [reflexivity|]. cbn [mget]. destruct (beqb k' k) eqn:B; [|exact I]. apply beqb_eq in B. subst k'. rewrite beqb_refl in AP.
    refine (IH _ _ _ _ (vnow_sorted _ _ SV) _ AP W). left. reflexivity.
  - exists (mset k w' m). split; [reflexivity|]. rewrite mget_mset by apply SV. destruct (beqb k' k) eqn:B; [|exact M]. apply beqb_eq in B. subst k'. rewrite beqb_refl in AP.
    refine (IH _ _ _ _ (vnow_sorted _ _ SV) _ AP W). unfold vnow. cbn [vchild]. destruct (mget k m); auto.
Qed.

Section Tree.
  Variable rx : bytes -> option (bytes -> bool).
  Variable get_schema : bytes -> res value.
  (** The keywords of a schema of objects. *)
  Lemma obj_go sub m ps rq dm c : objs m ps rq -> msorted dm -> (forall k s w c, mget k ps = Some s -> mget k dm = Some w -> sub s w c = Ok (Go c)) ->
    (forall k, In (VStr k) rq -> mget k dm <> None) -> validate_combinations sub m (VMap dm) c = Ok (Go c) -> validate_map rx get_schema sub m (VMap dm) c = Ok (Go c).
  Proof.
    intros OB SD CH RQ CO. assert (K : forall k, ~ In (s2b k) (List.map s2b ["type"; "properties"; "required"; "allOf"]%string) -> key k m = None) by (intros k; apply (ob_rest _ _ _ OB)).
    assert (NI : forall k, existsb (beqb (s2b k)) (List.map s2b ["type"; "properties"; "required"; "allOf"]%string) = false -> key k m = None).
    { intros k E. apply K. intros IK. assert (X : existsb (beqb (s2b k)) (List.map s2b ["type"; "properties"; "required"; "allOf"]%string) = true) by (apply existsb_exists; exists (s2b k); split; [exact IK|apply beqb_refl]). congruence. }
    unfold validate_map. rewrite (NI "$ref"%string) by reflexivity. cbn [next rbind].
    unfold validate_type. rewrite (ob_type _ _ _ OB). change (type_loop [VStr (s2b "object")] [VStr (s2b "object")] (VMap dm) c) with (Ok (Go c)). cbn [next rbind].
    unfold validate_enum. rewrite (NI "enum"%string) by reflexivity. cbn [next rbind validate_numeric number type_of is_num validate_string validate_array].
    unfold validate_object. unfold validate_size. rewrite (NI "minProperties"%string), (NI "maxProperties"%string) by reflexivity. cbn [next rbind].
    assert (E1 : validate_required m dm c = Ok (Go c)).
    { unfold validate_required. assert (R := ob_req _ _ _ OB). destruct (key "required" m) as [v|]; [subst v|reflexivity]. assert (F := ob_str _ _ _ OB).
      clear -F RQ. induction F as [|x l (k & ->) F IH]; cbn [each]; [reflexivity|]. destruct (mget k dm) eqn:G; [|exfalso; apply (RQ k); [now left|exact G]]. cbn [next rbind]. apply IH. intros k' IK. apply RQ. now right. }
    rewrite E1. cbn [next rbind].
    assert (E2 : validate_properties rx sub m dm c = Ok (Go c)).
    { unfold validate_properties. rewrite (NI "patternProperties"%string), (ob_props _ _ _ OB), (NI "additionalProperties"%string) by reflexivity.
      assert (SCtx (c_err c) (c_serr c || false || false) = c) as -> by (destruct c; cbn; now rewrite !Bool.orb_false_r).
      assert (G : forall kv, In kv dm -> mget (fst kv) dm = Some (snd kv)) by (intros [k w] IK; now apply In_mget).
      revert G. generalize dm at 1 3. intros l G. revert c CO E1. intros c _ _. revert c. induction l as [|kv l IH]; intros c; [reflexivity|]. cbn [each].
      match goal with |- next ?r _ = _ => assert (r = Ok (Go c)) as -> end.
      { cbn [List.filter each]. destruct (mget (fst kv) ps) as [s|] eqn:P.
        - rewrite (CH _ _ (snd kv) c P (G kv (or_introl eq_refl))). reflexivity.
        - reflexivity. }
      cbn [next rbind]. apply IH. intros y IY. apply G. now right. }
    rewrite E2. cbn [next rbind]. unfold validate_dependencies. rewrite (NI "dependencies"%string) by reflexivity. cbn [next rbind]. exact CO.
  Qed.
  Lemma combinations_absent sub m ps rq v c : objs m ps rq -> key "allOf" m = None -> validate_combinations sub m v c = Ok (Go c).
  Proof.
    intros OB AL. assert (NI : forall k, existsb (beqb (s2b k)) (List.map s2b ["type"; "properties"; "required"; "allOf"]%string) = false -> key k m = None).
    { intros k E. apply (ob_rest _ _ _ OB). intros IK. assert (X : existsb (beqb (s2b k)) (List.map s2b ["type"; "properties"; "required"; "allOf"]%string) = true) by (apply existsb_exists; exists (s2b k); split; [exact IK|apply beqb_refl]). congruence. }
    unfold validate_combinations, validate_all, validate_any, validate_one, validate_not. rewrite AL, (NI "anyOf"%string), (NI "oneOf"%string), (NI "not"%string) by reflexivity. reflexivity.
  Qed.
  (** The schema accepts the value with this many levels to go. *)
  Inductive acc : nat -> value -> value -> Prop :=
    | acc_leaf n m v : key "properties" m = None -> (2 <= n)%nat -> passes rx get_schema (VMap m) v -> acc n (VMap m) v
    | acc_obj n m ps rq dm : objs m ps rq -> key "allOf" m = None -> msorted dm -> (forall k s w, mget k ps = Some s -> mget k dm = Some w -> acc n s w) ->
        (forall k, In (VStr k) rq -> mget k dm <> None) -> acc (S n) (VMap m) (VMap dm).
  Lemma acc_valid n s v : acc n s v -> forall f dep c, (n <= f)%nat -> dep + N.of_nat n <= 100 -> validate rx get_schema f dep s v c = Ok (Go c).
  Proof.
    induction 1 as [n m v NP L PA|n m ps rq dm OB AL SD CH IH RQ]; intros f dep c F D.
    - apply PA; lia.
    - destruct f as [|f]; [lia|]. cbn [validate]. unfold RECURSION_LIMIT. destruct (N.ltb_spec 100 (dep + 1)); [lia|].
      apply (obj_go _ m ps rq); auto.
      + intros k s w c' P W. apply (IH k s w P W); lia.
      + eapply combinations_absent; eauto.
  Qed.
  Lemma acc_nil n v : (2 <= n)%nat -> acc n (VMap []) v.
  Proof.
    intros L. apply acc_leaf; [reflexivity|exact L|]. apply passes_map. intros. apply leaf_go.
    - intros k _. reflexivity.
    - reflexivity.
    - reflexivity.
    - apply numeric_absent; [intros k _|..]; reflexivity.
    - apply (string_absent rx get_schema); [intros k _|..]; reflexivity.
    - apply array_absent; [intros k _|..]; reflexivity.
  Qed.
  Lemma gen_acc ks : forall n s v req leaf, (List.length ks + 2 <= n)%nat -> key "properties" leaf = None -> vsorted v -> shape s ks -> mapped v ks -> acc n s v ->
    (vat v (keys ks) = None -> req = false) -> (forall w, vat v (keys ks) = Some w -> passes rx get_schema (VMap leaf) w) -> acc n (gen_at s ks req (VMap leaf)) v.
  Proof.
    induction ks as [|k ks IH]; intros n s v req leaf L LP SV H M A RQ PA.
    - cbn [gen_at]. apply acc_leaf; [exact LP|cbn in L; lia|]. apply PA. reflexivity.
    - destruct (gen_objs s k ks req (VMap leaf) (shape_cons _ _ _ H)) as (m0 & ps & rq & m' & rq' & C & -> & OB & RQ' & AL).
      destruct M as (dm & -> & M). cbn [List.length] in L. destruct n as [|n]; [lia|].
      assert (SD : msorted dm) by apply SV.
      assert (OLD : msorted ps /\ key "allOf" m0 = None /\ (forall k s w, mget k ps = Some s -> mget k dm = Some w -> acc n s w) /\ (forall k, In (VStr k) rq -> mget k dm <> None) /\ match mget k ps with None => True | Some s' => shape s' ks end).
      { destruct C as [(-> & -> & -> & ->) | [-> C]].
        - split; [exact I|]. split; [reflexivity|]. split; [discriminate|]. split; [intros ? []|exact I].
        - split; [apply C|]. inversion A as [n0 mm vv NP _ _ E1 E2 E3|n0 mm ps1 rq1 dm1 OB1 AL1 _ CH1 RQ1 E1 E2 E3]; subst.
          + exfalso. rewrite (ob_props _ _ _ C) in NP. discriminate.
          + destruct (objs_same _ _ _ _ _ C OB1) as [<- <-]. split; [exact AL1|]. split; [exact CH1|]. split; [exact RQ1|].
            destruct H as [E | (m1 & ps1 & rq1 & [= <-] & OB2 & H)]; [injection E as ->; exfalso; assert (X := ob_type _ _ _ C); discriminate|]. destruct (objs_same _ _ _ _ _ C OB2) as [<- _]. exact H. }
      destruct OLD as (SP & A0 & CH & RQ0 & SH). eapply acc_obj; [exact OB|congruence|exact SD| |].
      + intros k' s' w P W. rewrite mget_mset in P by exact SP. destruct (beqb k' k) eqn:B; [|exact (CH _ _ _ P W)]. apply beqb_eq in B. subst k'. injection P as <-. rewrite W in M.
        assert (VA : vat (VMap dm) (keys (k :: ks)) = vat w (keys ks)) by (cbn [keys List.map vat vchild]; now rewrite W). rewrite VA in RQ, PA.
        apply IH; auto; [lia| | |].
        * eapply (vsorted_child (VMap dm) (PKey k)); eauto.
        * destruct (mget k ps); [exact SH|apply shape_nil].
        * destruct (mget k ps) as [s'|] eqn:G; [exact (CH _ _ _ G W)|apply acc_nil; lia].
      + intros x IX. destruct (proj1 (RQ' x) IX) as [IX' | [-> ->]]; [auto|]. intros N.
        assert (X : true = false); [|discriminate]. apply RQ. cbn [keys List.map vat vchild]. now rewrite N.
  Qed.
End Tree.

(** ** Proof: the groups *)
Section Groups.
  Variable rx : bytes -> option (bytes -> bool).
  Variable get_schema : bytes -> res value.
  Notation val := (validate rx get_schema).
  Lemma present_go ks : forall v f dep c, vsorted v -> mapped v ks -> (List.length ks + 1 <= f)%nat -> dep + N.of_nat (List.length ks) + 1 <= 100 ->
    match vat v (keys ks) with Some _ => val f dep (present ks) v c = Ok (Go c) | None => exists c', val f dep (present ks) v c = Ok (Stop c') end.
  Proof.
    induction ks as [|k ks IH]; intros v f dep c SV M F D; destruct f as [|f]; try (cbn in F; lia).
    - cbn [keys List.map vat present validate]. unfold RECURSION_LIMIT. destruct (N.ltb_spec 100 (dep + 1)); [cbn in D; lia|]. apply leaf_go.
      + intros k _. reflexivity.
      + reflexivity.
      + reflexivity.
      + apply numeric_absent; [intros k _|..]; reflexivity.
      + apply (string_absent rx get_schema); [intros k _|..]; reflexivity.
      + apply array_absent; [intros k _|..]; reflexivity.
    - destruct M as (dm & -> & M). cbn [keys List.map vat vchild]. fold (keys ks). cbn [List.length] in F, D.
      cbn [present validate]. unfold RECURSION_LIMIT. destruct (N.ltb_spec 100 (dep + 1)); [lia|].
      set (m := [(s2b "properties", VMap [(k, present ks)]); (s2b "required", VList [VStr k])]).
      assert (NI : forall x, existsb (beqb (s2b x)) (List.map s2b ["properties"; "required"]%string) = false -> key x m = None).
      { intros x E. unfold m, key. cbn [List.map existsb] in E. rewrite Bool.orb_false_r in E. apply Bool.orb_false_iff in E. destruct E as [E1 E2]. cbn [mget]. now rewrite E1, E2. }
      unfold validate_map, validate_type, validate_enum. rewrite (NI "$ref"%string), (NI "type"%string), (NI "enum"%string) by reflexivity. cbn [next rbind validate_numeric number type_of is_num validate_string validate_array].
      unfold validate_object, validate_size. rewrite (NI "minProperties"%string), (NI "maxProperties"%string) by reflexivity. cbn [next rbind].
      unfold validate_required. change (key "required" m) with (Some (VList [VStr k])). cbn [each]. destruct (mget k dm) as [w|] eqn:G.
      2: { cbn [next rbind add_error]. eauto. }
      cbn [next rbind]. unfold validate_properties. rewrite (NI "patternProperties"%string), (NI "additionalProperties"%string) by reflexivity. change (key "properties" m) with (Some (VMap [(k, present ks)])). cbv beta iota zeta.
      assert (SCtx (c_err c) (c_serr c || false || false) = c) as -> by (destruct c; cbn; now rewrite !Bool.orb_false_r).
      assert (SD : msorted dm) by apply SV. assert (SW : vsorted w) by (eapply (vsorted_child (VMap dm) (PKey k)); eauto).
      assert (MW : mapped w ks) by exact M. specialize (IH w f (dep + 1)).
      assert (IW : In (k, w) dm) by now apply mget_In. assert (ON : forall x, In (k, x) dm -> x = w) by (intros x IX; apply In_mget in IX; [congruence|exact SD]).
      match goal with |- match _ with Some _ => next (next (each ?g dm c) _) _ = _ | None => _ end =>
        assert (OTH : forall k' x c, beqb k' k = false -> g (k', x) c = Ok (Go c)) by (intros k' x c' B; cbn [fst snd mget List.filter each]; rewrite B; reflexivity);
        assert (OWN : forall x c, g (k, x) c = next (validate rx get_schema f (dep + 1) (present ks) x c) (fun c => Ok (Go c)))
          by (intros x c'; cbn [fst snd mget List.filter each]; rewrite beqb_refl; destruct (validate rx get_schema f (dep + 1) (present ks) x c') as [[|]| | | |]; reflexivity);
        generalize dependent g end.
      intros g OTH OWN. destruct (vat w (keys ks)) eqn:VW.
      + assert (EG : each g dm c = Ok (Go c)).
        { clear IW NI G SV SD M. revert ON. generalize dm. intros l ON. revert c. induction l as [|[k' x] l IHl]; intros c; [reflexivity|]. cbn [each].
          assert (g (k', x) c = Ok (Go c)) as ->.
          { destruct (beqb k' k) eqn:B; [|now apply OTH]. apply beqb_eq in B. subst k'. rewrite OWN, (ON x (or_introl eq_refl)), IH by (auto; lia). reflexivity. }
          cbn [next rbind]. apply IHl. intros y IY. apply ON. now right. }
        rewrite EG. cbn [next rbind]. unfold validate_dependencies. rewrite (NI "dependencies"%string) by reflexivity. cbn [next rbind].
        unfold validate_combinations, validate_all, validate_any, validate_one, validate_not. rewrite (NI "allOf"%string), (NI "anyOf"%string), (NI "oneOf"%string), (NI "not"%string) by reflexivity. reflexivity.
      + assert (EG : exists c', each g dm c = Ok (Stop c')).
        { clear NI G SV SD M. revert IW ON. generalize dm. intros l IW ON. revert c. induction l as [|[k' x] l IHl]; intros c; [destruct IW|]. cbn [each].
          destruct (beqb k' k) eqn:B.
          - apply beqb_eq in B. subst k'. rewrite OWN, (ON x (or_introl eq_refl)). destruct (IH c SW) as [c' ->]; [|lia|lia|cbn [next rbind]; eauto]. exact MW.
          - rewrite (OTH k' x c B). cbn [next rbind]. apply IHl; [|intros y IY; apply ON; now right]. destruct IW as [[= -> ->] | IW]; [rewrite beqb_refl in B; discriminate|exact IW]. }
        destruct EG as [c' ->]. cbn [next rbind]. eauto.
  Qed.
End Groups.

Section Combine.
  Variable sub : value -> value -> sctx -> res flow.
  Variable v : value.
  (** Whether each of these schemas accepts the value. *)
  Definition answer (s : value) (b : bool) : Prop := forall c, if b then sub s v c = Ok (Go c) else exists c', sub s v c = Ok (Stop c').
  Lemma one_go l bs : Forall2 answer l bs -> forall n c, n + N.of_nat (List.length (filter (fun b => b) bs)) = 1 -> one_loop sub l n v c = Ok (Go c).
  Proof.
    induction 1 as [|s b l bs A F IH]; intros n c E; cbn [one_loop].
    - cbn [filter List.length] in E. destruct (N.eqb_spec n 0); [lia|reflexivity].
    - specialize (A no_errors). destruct b; cbn [filter List.length] in E.
      + rewrite A. cbn [rbind failed no_errors c_err c_serr orb]. assert (n = 0) as -> by lia. cbn [N.add]. change (wrap32 1) with 1. cbn [N.ltb N.compare Pos.compare Pos.compare_cont]. apply IH. lia.
      + destruct A as [c' ->]. cbn [rbind]. destruct (N.ltb_spec 1 n); [lia|]. now apply IH.
  Qed.
  Lemma any_go l bs c : Forall2 answer l bs -> if existsb (fun b => b) bs then any_loop sub l v c = Ok (Go c) else exists c', any_loop sub l v c = Ok (Stop c').
  Proof.
    induction 1 as [|s b l bs A F IH]; cbn [existsb any_loop]; [unfold add_error; eauto|]. specialize (A no_errors). destruct b.
    - rewrite A. reflexivity.
    - destruct A as [c' ->]. cbn [rbind orb]. exact IH.
  Qed.
End Combine.
(** Schemas with one of the combining keywords only. *)
Lemma lone_map rx get_schema sub k x v c : In k ["oneOf"; "not"; "anyOf"]%string -> validate_map rx get_schema sub [(s2b k, x)] v c = validate_combinations sub [(s2b k, x)] v c.
Proof.
  intros IK. assert (NI : forall y, existsb (fun z => beqb (s2b y) (s2b z)) ["oneOf"; "not"; "anyOf"]%string = false -> key y [(s2b k, x)] = None).
  { intros y E. unfold key. cbn [mget]. destruct (beqb (s2b y) (s2b k)) eqn:B; [|reflexivity]. exfalso.
    assert (X : existsb (fun z => beqb (s2b y) (s2b z)) ["oneOf"; "not"; "anyOf"]%string = true) by (apply existsb_exists; eauto). congruence. }
  unfold validate_map, validate_type, validate_enum. rewrite (NI "$ref"%string), (NI "type"%string), (NI "enum"%string) by reflexivity. cbn [next rbind].
  assert (validate_numeric [(s2b k, x)] v c = Ok (Go c)) as ->.
  { unfold validate_numeric. destruct (number v); [|reflexivity]. unfold validate_multiple, validate_minmax, validate_bound. rewrite !NI by reflexivity. reflexivity. }
  cbn [next rbind]. assert (validate_string rx [(s2b k, x)] v c = Ok (Go c)) as ->.
  { unfold validate_string. destruct v; try reflexivity. unfold validate_size, validate_pattern, validate_format. rewrite !NI by reflexivity. reflexivity. }
  cbn [next rbind]. assert (validate_array sub [(s2b k, x)] v c = Ok (Go c)) as ->.
  { unfold validate_array. destruct v; try reflexivity. unfold validate_size, validate_unique, validate_items. rewrite !NI by reflexivity. reflexivity. }
  cbn [next rbind]. assert (validate_object rx sub [(s2b k, x)] v c = Ok (Go c)) as ->; [|reflexivity].
  unfold validate_object. destruct v as [| | | | | | |fs|]; try reflexivity. unfold validate_size, validate_required, validate_properties, validate_dependencies.
  rewrite !NI by reflexivity. cbn [next rbind]. rewrite each_go.
  - cbn [next rbind]. destruct c; cbn. rewrite !Bool.orb_false_r. reflexivity.
  - intros y c0. reflexivity.
Qed.
Lemma count_one {T} (f : T -> bool) l : NoDup l -> (forall i j, In i l -> In j l -> f i = true -> f j = true -> i = j) ->
  existsb f l = true /\ List.length (filter f l) = 1%nat \/ existsb f l = false /\ List.length (filter f l) = 0%nat.
Proof.
  induction 1 as [|x l NI ND IH]; intros U; [right; auto|]. cbn [existsb filter]. destruct (f x) eqn:FX; cbn [orb].
  - left. split; [reflexivity|]. cbn [List.length]. f_equal. destruct (filter f l) as [|y t] eqn:E; [reflexivity|]. exfalso.
    assert (IY : In y (filter f l)) by (rewrite E; now left). apply filter_In in IY. destruct IY as [IY FY]. assert (x = y) by (apply U; cbn; auto). now subst.
  - apply IH. intros i j II IJ. apply U; now right.
Qed.
Lemma filter_map_id {T} (f : T -> bool) l : List.length (filter (fun b => b) (List.map f l)) = List.length (filter f l).
Proof. induction l as [|x l IH]; [reflexivity|]. cbn [List.map filter]. destruct (f x); cbn [List.length]; congruence. Qed.
Lemma existsb_map_id {T} (f : T -> bool) l : existsb (fun b => b) (List.map f l) = existsb f l.
Proof. induction l as [|x l IH]; [reflexivity|]. cbn [List.map existsb]. now rewrite IH. Qed.
(** The schema of a group accepts a value in which at most one, or one, of the paths is there. *)
Lemma group_go rx get_schema d g v ids paths f dep c : vsorted v -> g_exclusive g = true -> nodup N.eq_dec (g_members g) = ids ->
  flat_map (fun id => match find_opt d id with Some o => [present (path_keys (o_path o))] | None => [] end) ids = List.map present paths ->
  (forall ks, In ks paths -> mapped v ks /\ (List.length ks <= 95)%nat) ->
  (let n := List.length (filter (fun ks => match vat v (keys ks) with Some _ => true | None => false end) paths) in (n = 1 \/ n = 0 /\ g_required g = false)%nat) ->
  (99 <= f)%nat -> dep = 1 -> each (fun s => validate rx get_schema f dep s v) (gen_group d g) c = Ok (Go c).
Proof.
  intros SV GE GM FM PA CN F ->. unfold gen_group. rewrite GE, GM, FM. cbn [each]. destruct f as [|f]; [lia|].
  set (h := fun ks => match vat v (keys ks) with Some _ => true | None => false end) in CN.
  assert (AN : forall f dep, (96 <= f)%nat -> dep <= 4 -> Forall2 (answer (validate rx get_schema f dep) v) (List.map present paths) (List.map h paths)).
  { intros f' dep' F' D'. clear CN FM. induction paths as [|ks l IH]; [constructor|]. cbn [List.map]. constructor; [|apply IH; intros; apply PA; now right].
    destruct (PA ks (or_introl eq_refl)) as [M L]. intros c'. assert (G := present_go rx get_schema ks v f' dep' c' SV M). unfold h. destruct (vat v (keys ks)); apply G; lia. }
  match goal with |- next ?r _ = _ => assert (r = Ok (Go c)) as ->; [|reflexivity] end.
  cbn [validate]. change (RECURSION_LIMIT <? 1 + 1) with false. cbv iota. rewrite lone_map by (cbn; tauto).
  unfold validate_combinations, validate_all, validate_any, validate_not. change (key "allOf" _) with (@None value). change (key "anyOf" _) with (@None value). change (key "not" _) with (@None value). cbn [next rbind].
  match goal with |- next ?r _ = _ => assert (r = Ok (Go c)) as ->; [|reflexivity] end.
  unfold validate_one, key. cbn [mget]. rewrite beqb_refl. cbv zeta in CN.
  destruct (g_required g) eqn:RQ.
  - apply (one_go _ _ _ (List.map h paths)); [apply AN; lia|]. rewrite filter_map_id. destruct CN as [-> | [_ ?]]; [reflexivity|discriminate].
  - apply (one_go _ _ _ (List.map h paths ++ [negb (existsb h paths)])).
    + apply Forall2_app; [apply AN; lia|]. constructor; [|constructor]. intros c'. destruct f as [|f]; [lia|]. cbn [validate]. change (RECURSION_LIMIT <? 1 + 1 + 1) with false. cbv iota. rewrite lone_map by (cbn; tauto).
      unfold validate_combinations, validate_all, validate_any, validate_one. change (key "allOf" _) with (@None value). change (key "anyOf" [(s2b "not", VMap [(s2b "anyOf", VList (List.map present paths))])]) with (@None value). change (key "oneOf" _) with (@None value). cbn [next rbind].
      unfold validate_not, key. cbn [mget]. rewrite beqb_refl. destruct f as [|f]; [lia|]. cbn [validate]. change (RECURSION_LIMIT <? 1 + 1 + 1 + 1) with false. cbv iota. rewrite lone_map by (cbn; tauto).
      unfold validate_combinations, validate_all. change (key "allOf" _) with (@None value). cbn [next rbind]. unfold validate_any. change (key "anyOf" [(s2b "anyOf", VList (List.map present paths))]) with (Some (VList (List.map present paths))). cbv iota.
      assert (Q := any_go (validate rx get_schema f (1 + 1 + 1 + 1)) v _ _ no_errors (AN f (1 + 1 + 1 + 1) ltac:(lia) ltac:(lia))). rewrite existsb_map_id in Q. destruct (existsb h paths); cbn [negb].
      * rewrite Q. cbn [next rbind]. unfold validate_one, validate_not. change (key "oneOf" _) with (@None value). change (key "not" _) with (@None value). cbn [next rbind failed no_errors c_err c_serr orb]. unfold add_error. eauto.
      * destruct Q as [c2 ->]. cbn [next rbind]. reflexivity.
    + rewrite filter_app, app_length, filter_map_id. cbn [filter].
      assert (X : existsb h paths = negb (Nat.eqb (List.length (filter h paths)) 0)).
      { clear. induction paths as [|x l IH]; [reflexivity|]. cbn [existsb filter]. destruct (h x); [reflexivity|exact IH]. }
      rewrite X. destruct CN as [-> | [-> _]]; reflexivity.
Qed.

(** ** Proof: the Variant that is returned *)
Lemma path_keys_keys ks : path_keys (keys ks) = ks.
Proof. unfold path_keys, keys. rewrite map_map. apply map_id. Qed.
Lemma vok_sorted v : vok v -> vsorted v.
Proof.
  induction v as [|x|z|n|f|s|l IH|m IH|x] using value_ind'; intros V; try exact I.
  - apply vsorted_list. cbn [vok] in V. induction IH as [|x l HX F IHl]; [constructor|]. destruct V. constructor; auto.
  - apply vsorted_map. cbn [vok] in V. destruct V as [SM V]. split; [exact SM|]. clear SM. induction IH as [|x l HX F IHl]; [constructor|]. destruct V. constructor; auto.
Qed.
Lemma mapped_self ks : forall v x v', vsorted v -> v = VNull \/ mapped v ks -> vset v (keys ks) x = Some v' -> mapped v' ks.
Proof.
  induction ks as [|k ks IH]; intros v x v' SV M E; [exact I|]. cbn [keys List.map vset] in E.
  fold (keys ks) in E. fold (vnow v (PKey k)) in E. destruct (vset (vnow v (PKey k)) (keys ks) x) as [w'|] eqn:W; [|discriminate].
  destruct M as [-> | (m & -> & M)]; cbn [vset_elem] in E; injection E as <-; cbn [mapped].
  - exists [(k, w')]. split; [reflexivity|]. cbn [mget]. rewrite beqb_refl. refine (IH _ _ _ (vnow_sorted _ _ SV) _ W). left. reflexivity.
  - exists (mset k w' m). split; [reflexivity|]. rewrite mget_mset, beqb_refl by apply SV. refine (IH _ _ _ (vnow_sorted _ _ SV) _ W). unfold vnow. cbn [vchild]. destruct (mget k m); auto.
Qed.
Lemma form_mapped l st ks : (forall o, In o l -> vsorted (a_res st (o_id o)) /\ exists q, o_path o = keys q /\ (apart q ks \/ q = ks)) -> forall v r, vsorted v -> mapped v ks ->
  form_result l st v = Ok r -> vsorted r /\ mapped r ks.
Proof.
  induction l as [|o l IH]; intros H v r SV M E; cbn [form_result] in E; [now injection E as <-|]. destruct (H o (or_introl eq_refl)) as (SR & q & P & Q).
  destruct (has_result (o_action o) && negb (is_null (a_res st (o_id o))))%bool; [|apply (IH (fun x IX => H x (or_intror IX)) v); auto].
  destruct (vset v (o_path o) (a_res st (o_id o))) as [v'|] eqn:W; [|discriminate]. apply (IH (fun x IX => H x (or_intror IX)) v'); [|..|exact E].
  - exact (vset_sorted _ _ _ _ SV SR W).
  - rewrite P in W. destruct Q as [Q | ->]; [exact (mapped_set _ _ _ _ _ SV (or_intror M) Q W)|exact (mapped_self _ _ _ _ SV (or_intror M) W)].
Qed.
Lemma form_absent l st ks : (forall o, In o l -> vsorted (a_res st (o_id o)) /\ (diverge (o_path o) (keys ks) \/ (has_result (o_action o) && negb (is_null (a_res st (o_id o))))%bool = false)) -> forall v r, vsorted v ->
  vat v (keys ks) = None -> form_result l st v = Ok r -> vat r (keys ks) = None.
Proof.
  induction l as [|o l IH]; intros H v r SV N E; cbn [form_result] in E; [now injection E as <-|]. destruct (H o (or_introl eq_refl)) as (SR & Q).
  destruct (has_result (o_action o) && negb (is_null (a_res st (o_id o))))%bool; [|apply (IH (fun x IX => H x (or_intror IX)) v); auto].
  destruct (vset v (o_path o) (a_res st (o_id o))) as [v'|] eqn:W; [|discriminate]. apply (IH (fun x IX => H x (or_intror IX)) v'); [|..|exact E].
  - exact (vset_sorted _ _ _ _ SV SR W).
  - destruct Q as [Q | Q]; [|discriminate]. destruct (vat_vset_other _ _ _ _ _ SV W Q) as [-> | (_ & _ & r1 & i & j & p' & _ & K & _)]; [exact N|].
    exfalso. assert (X : In (PIdx i) (keys ks)) by (rewrite K; apply in_or_app; right; now left). apply in_map_iff in X. destruct X as (? & ? & _). discriminate.
Qed.
Section Whole.
  Variable rx : bytes -> option (bytes -> bool).
  Variable get_schema : bytes -> res value.
  Variable v : value.
  Hypothesis SV : vsorted v.
  (** Everything that is needed of an option. *)
  Record ready (o : aopt) : Prop := {
    rd_path : exists ks, o_path o = keys ks /\ ks <> [] /\ (List.length ks <= 95)%nat;
    rd_mapped : mapped v (path_keys (o_path o));
    rd_req : vat v (o_path o) = None -> o_required o = false;
    rd_leaf : forall leaf w, gen_leaf o = Ok leaf -> vat v (o_path o) = Some w -> passes rx get_schema (VMap leaf) w;
    rd_props : forall leaf, gen_leaf o = Ok leaf -> key "properties" leaf = None }.
  Lemma all_acc l : Forall ready l -> ForallOrdPairs (fun a b => apart (path_keys (o_path a)) (path_keys (o_path b))) l -> forall s s', (forall o, In o l -> shape s (path_keys (o_path o))) -> acc rx get_schema 100 s v ->
    gen_all l s = Ok s' -> acc rx get_schema 100 s' v /\ (l <> [] -> exists m ps rq, s' = VMap m /\ objs m ps rq).
  Proof.
    intros R AP. induction AP as [|o l AO AP IH]; intros s s' SH A E; cbn [gen_all] in E; [injection E as <-; split; [exact A|congruence]|].
    inversion R as [|? ? RO R']; subst. apply P_ArgParse.bind_ok in E. destruct E as (leaf & GL & E). destruct RO as [(ks & P & NE & L) M RQ RL RP].
    rewrite P, path_keys_keys in *. assert (SO : shape s ks) by (specialize (SH o (or_introl eq_refl)); rewrite P, path_keys_keys in SH; exact SH).
    assert (A1 : acc rx get_schema 100 (gen_at s ks (o_required o) (VMap leaf)) v) by (apply gen_acc; auto; lia).
    destruct (IH R' (gen_at s ks (o_required o) (VMap leaf)) s') as [A2 Q]; [|exact A1|exact E|].
    - intros x IX. apply shape_kept; [exact SO|apply SH; now right|]. rewrite Forall_forall in AO. exact (AO x IX).
    - split; [exact A2|]. intros _. destruct l as [|x l]; [|apply Q; discriminate]. cbn [gen_all] in E. injection E as <-. destruct ks as [|k ks]; [congruence|].
      destruct (gen_objs s k ks (o_required o) (VMap leaf) (shape_cons _ _ _ SO)) as (m0 & ps & rq & m' & rq' & _ & -> & OB & _). eexists m', _, rq'. split; [reflexivity|exact OB].
  Qed.
End Whole.
Lemma each_app {T} (f : T -> sctx -> res flow) a b c : each f a c = Ok (Go c) -> each f b c = Ok (Go c) -> each f (a ++ b) c = Ok (Go c).
Proof.
  intros A B. assert (X : forall l c, each f (l ++ b) c = next (each f l c) (each f b)).
  { clear. induction l as [|x l IH]; intros c; [reflexivity|]. cbn [app each]. destruct (f x c) as [[|]| | | |]; cbn [next rbind]; auto. }
  rewrite X, A. exact B.
Qed.

(** What Parse returns is valid under the schema that GenerateSchema makes, whatever is on the command line and in the environment. *)
Theorem C53_valid_partial flt rx env load stale get_schema d fuel evs rest st r l schema f :
  P_ArgParse.plain d -> NoDup (List.map o_id (d_opts d)) -> ForallOrdPairs (fun a b => diverge (o_path b) (o_path a)) (d_opts d) ->
  (forall o, In o (d_opts d) -> sound rx o /\ vok (a_res st (o_id o)) /\ exists ks, o_path o = List.map PKey ks /\ ks <> [] /\ (List.length ks <= 95)%nat) ->
  (forall g, In g (d_groups d) -> incl (g_members g) (List.map o_id (d_opts d))) ->
  a_run flt rx env load stale d fuel evs rest a_init = Done st -> a_form d st = Ok r ->
  l <> [] -> NoDup l -> incl l (d_opts d) -> gen_schema d l = Ok schema -> (100 <= f)%nat ->
  schema_validate rx get_schema f schema r = Ok no_errors.
Proof.
  intros PL ND FP HO HG RUN FORM NE NDL INC GEN F.
  assert (SRT : forall o, In o (d_opts d) -> vsorted (a_res st (o_id o))) by (intros o IO; apply vok_sorted, HO, IO).
  assert (DV : forall a b, In a (d_opts d) -> In b (d_opts d) -> a = b \/ diverge (o_path a) (o_path b)).
  { intros a b IA IB. destruct (ForallOrdPairs_In FP a b IA IB) as [-> | [D | D]]; auto; right; auto.
    destruct D as (x & e & e' & p & q & -> & -> & N). exists x, e', e, q, p. auto. }
  assert (SV0 : vsorted (VMap [])) by (apply vsorted_map; split; constructor).
  assert (KEY : forall o, In o (d_opts d) -> exists ks, o_path o = keys ks /\ ks <> [] /\ (List.length ks <= 95)%nat) by (intros o IO; apply HO, IO).
  assert (MAP : forall o, In o (d_opts d) -> vsorted r /\ mapped r (path_keys (o_path o))).
  { intros o IO. destruct (KEY o IO) as (ks & P & _). apply (form_mapped (d_opts d) st) with (v := VMap []); [|exact SV0|apply mapped_nil|exact FORM].
    intros x IX. split; [auto|]. destruct (KEY x IX) as (q & PX & _). exists q. split; [exact PX|]. rewrite P, path_keys_keys.
    destruct (DV x o IX IO) as [-> | D]; [right; rewrite P in PX; apply (f_equal path_keys) in PX; now rewrite !path_keys_keys in PX|]. left. rewrite P, PX in D. now apply diverge_apart. }
  assert (SR : vsorted r) by (destruct l as [|o l0]; [congruence|]; apply (MAP o), INC; now left).
  assert (SHO : forall o, In o (d_opts d) -> a_res st (o_id o) <> VNull -> shown rx o (a_res st (o_id o))).
  { intros o IO NN. apply (result_shown flt rx env load stale d fuel evs rest); auto; apply HO, IO. }
  assert (AT : forall o, In o (d_opts d) -> vat r (o_path o) = if is_null (a_res st (o_id o)) then None else Some (a_res st (o_id o))).
  { intros o IO. destruct (is_null (a_res st (o_id o))) eqn:IN.
    - destruct (KEY o IO) as (ks & P & NK & _). rewrite P. apply (form_absent (d_opts d) st) with (v := VMap []); [|exact SV0|destruct ks; [congruence|reflexivity]|exact FORM].
      intros x IX. split; [auto|]. rewrite <- P. destruct (DV x o IX IO) as [-> | D]; [right; rewrite IN; apply Bool.andb_false_r|left; exact D].
    - apply is_null_false in IN. apply (C52_result_partial d st r SRT FP FORM o IO); [|exact IN].
      assert (S := SHO o IO IN). unfold shown in S. unfold storing. destruct (o_action o); cbn; tauto. }
  assert (RDY : forall o, In o (d_opts d) -> ready rx get_schema r o).
  { intros o IO. destruct (HO o IO) as (SO & VO & _). constructor.
    - exact (KEY o IO).
    - apply MAP, IO.
    - rewrite (AT o IO). destruct (is_null (a_res st (o_id o))) eqn:IN; [|discriminate]. intros _. destruct (o_required o) eqn:RQ; [|reflexivity]. exfalso.
      destruct (C52_values_partial _ _ _ _ _ _ _ _ _ _ PL ND RUN) as (shares & _ & H). destruct (H o IO) as (vs & _ & _ & _ & _ & _ & A & _). apply (A RQ). now apply is_null_spec.
    - intros leaf w GL. rewrite (AT o IO). destruct (is_null (a_res st (o_id o))) eqn:IN; [discriminate|]. intros [= <-]. apply is_null_false in IN. apply (leaf_ok rx get_schema o leaf); auto.
    - intros leaf GL. assert (HS := head_sorted o). unfold gen_leaf in GL. fold (head o) in GL. unfold key.
      destruct (o_action o).
      + injection GL as <-. now apply head_get.
      + injection GL as <-. rewrite copy_get, demands_get by auto using demands_sorted. change (beqb (s2b "properties") (s2b "default")) with false. change (beqb (s2b "properties") (s2b "type")) with false. cbv iota. cbn [existsb]. vm_compute (beqb _ _). cbn [orb]. now apply head_get.
      + destruct (akey "const" o); [|discriminate]. injection GL as <-. rewrite mget_mset by auto. vm_compute (beqb _ _). now apply head_get.
      + injection GL as <-. rewrite copy_get, mget_mset by auto using msorted_mset. vm_compute (beqb _ _). cbv iota. now apply head_get.
      + injection GL as <-. rewrite copy_get, mget_mset by auto using msorted_mset. vm_compute (beqb _ _). cbv iota. now apply head_get.
      + cbv zeta in GL. apply P_ArgParse.bind_ok in GL. destruct GL as (m2 & G2 & G3). set (m0 := match akey "default" o with Some _ => _ | None => _ end) in G2.
        assert (S0 : msorted m0 /\ mget (s2b "properties") m0 = None).
        { subst m0. destruct (akey "default" o); [|split; [exact HS|now apply head_get]]. split; [now apply msorted_mset|]. rewrite mget_mset by auto. now apply head_get. }
        assert (C : forall from to m m', beqb (s2b "properties") (s2b to) = false -> msorted m /\ mget (s2b "properties") m = None -> copy_positive o from to m = Ok m' -> msorted m' /\ mget (s2b "properties") m' = None).
        { intros from to m m' B [A1 A2] CP. unfold copy_positive in CP. destruct (akey from o); [|now injection CP as <-]. apply P_ArgParse.bind_ok in CP. destruct CP as ([|] & _ & CP); injection CP as <-; [|auto].
          split; [now apply msorted_mset|]. rewrite mget_mset by auto. now rewrite B. }
        refine (proj2 (C _ _ _ _ _ (C _ _ _ _ _ _ G2) G3)); [reflexivity..|]. destruct S0 as [A1 A2]. split; [now apply msorted_mset|]. rewrite mget_mset by auto. exact A2.
      + injection GL as <-. rewrite !mget_mset by auto using msorted_mset. vm_compute (beqb _ _). cbv iota. now apply head_get.
      + injection GL as <-. now apply head_get.
      + injection GL as <-. now apply head_get.
      + injection GL as <-. now apply head_get.
      + injection GL as <-. now apply head_get.
      + injection GL as <-. now apply head_get.
      + injection GL as <-. now apply head_get.
      + injection GL as <-. now apply head_get. }
  unfold gen_schema in GEN. apply P_ArgParse.bind_ok in GEN. destruct GEN as (s & GA & GEN). injection GEN as <-.
  destruct (all_acc rx get_schema r SR l) with (s := VMap []) (s' := s) as [ACC TOP].
  - rewrite Forall_forall. intros o IO. apply RDY, INC, IO.
  - clear GA NE. induction NDL as [|o l NI NDL IH]; constructor.
    + rewrite Forall_forall. intros x IX. assert (IO : In o (d_opts d)) by (apply INC; now left). assert (IX' : In x (d_opts d)) by (apply INC; now right).
      destruct (DV o x IO IX') as [-> | D]; [contradiction|]. destruct (KEY o IO) as (ks & P & _). destruct (KEY x IX') as (ks' & P' & _). rewrite P, P' in *. rewrite !path_keys_keys. now apply diverge_apart.
    + apply IH. intros x IX. apply INC. now right.
  - intros. apply shape_nil.
  - apply acc_nil. lia.
  - exact GA.
  - destruct (TOP NE) as (m & ps & rq & -> & OB). clear TOP. unfold schema_validate.
    assert (VAL : validate rx get_schema f 0 (gen_groups d (VMap m)) r no_errors = Ok (Go no_errors)); [|rewrite VAL; reflexivity].
    unfold gen_groups. destruct (flat_map (gen_group d) (d_groups d)) as [|g0 gl] eqn:GR.
    + apply (acc_valid rx get_schema 100 _ _ ACC); [exact F|cbn; lia].
    + rewrite <- GR. inversion ACC as [n0 mm vv NP _ _ E1 E2 E3|n0 mm ps1 rq1 dm OB1 AL1 SD CH RQ1 E1 E2 E3]; subst.
      { exfalso. rewrite (ob_props _ _ _ OB) in NP. discriminate. }
      destruct (objs_same _ _ _ _ _ OB OB1) as [<- <-]. destruct f as [|f]; [lia|]. cbn [validate]. change (RECURSION_LIMIT <? 0 + 1) with false. cbv iota. change (0 + 1) with 1.
      set (L := flat_map (gen_group d) (d_groups d)) in *.
      assert (K : forall k, mget k (mset (s2b "allOf") (VList L) m) = if beqb k (s2b "allOf") then Some (VList L) else mget k m) by (intros k; apply mget_mset, OB).
      apply (obj_go rx get_schema _ _ ps rq).
      * destruct OB as [O1 O2 O3 O4 O5 O6 O7]. constructor; unfold key in *; rewrite ?K; auto.
        -- now apply msorted_mset.
        -- intros k N. rewrite K. destruct (beqb k (s2b "allOf")) eqn:B; [|auto]. apply beqb_eq in B. subst k. exfalso. apply N. cbn. tauto.
      * exact SD.
      * intros k s w c P W. apply (acc_valid rx get_schema 99 _ _ (CH k s w P W)); [lia|cbn; lia].
      * exact RQ1.
      * assert (NI : forall k, beqb (s2b k) (s2b "allOf") = false -> existsb (beqb (s2b k)) (List.map s2b ["type"; "properties"; "required"; "allOf"]%string) = false -> key k (mset (s2b "allOf") (VList L) m) = None).
        { intros k B E. unfold key. rewrite K, B. apply (ob_rest _ _ _ OB). intros IK. assert (X : existsb (beqb (s2b k)) (List.map s2b ["type"; "properties"; "required"; "allOf"]%string) = true) by (apply existsb_exists; exists (s2b k); split; [exact IK|apply beqb_refl]). congruence. }
        unfold validate_combinations, validate_all. unfold key at 1. rewrite K, beqb_refl.
        assert (ALL : forall gs, incl gs (d_groups d) -> each (fun s => validate rx get_schema f 1 s (VMap dm)) (flat_map (gen_group d) gs) no_errors = Ok (Go no_errors)).
        { induction gs as [|g gs IH]; intros IG; [reflexivity|]. cbn [flat_map]. apply each_app; [|apply IH; intros x IX; apply IG; now right].
          assert (IN : In g (d_groups d)) by (apply IG; now left). destruct (g_exclusive g) eqn:GE; [|unfold gen_group; rewrite GE; reflexivity].
          set (ids := nodup N.eq_dec (g_members g)).
          assert (IDS : forall i, In i ids -> exists o, In o (d_opts d) /\ o_id o = i).
          { intros i II. subst ids. rewrite nodup_In in II. apply (HG g IN) in II. apply in_map_iff in II. destruct II as (o & <- & IO). eauto. }
          set (pk := fun i => match find_opt d i with Some o => path_keys (o_path o) | None => [] end).
          assert (PK : forall i, In i ids -> exists o, In o (d_opts d) /\ o_id o = i /\ find_opt d i = Some o /\ pk i = path_keys (o_path o)).
          { intros i II. destruct (IDS i II) as (o & IO & <-). exists o. subst pk. cbv beta. rewrite (find_opt_in d o ND IO). auto. }
          apply (group_go rx get_schema d g (VMap dm) ids (List.map pk ids)); auto; [| | |lia].
          - subst pk. clear -PK. induction ids as [|i ids IH]; [reflexivity|]. cbn [flat_map List.map]. destruct (PK i (or_introl eq_refl)) as (o & _ & _ & FO & _). rewrite FO. cbn [app]. f_equal. apply IH. intros j IJ. apply PK. now right.
          - intros ks IK. apply in_map_iff in IK. destruct IK as (i & <- & II). destruct (PK i II) as (o & IO & _ & _ & ->). split; [apply MAP, IO|]. destruct (KEY o IO) as (q & -> & _ & LQ). now rewrite path_keys_keys.
          - cbv zeta. assert (CNT : List.length (filter (fun ks => match vat (VMap dm) (keys ks) with Some _ => true | None => false end) (List.map pk ids)) = List.length (filter (fun i => negb (is_null (a_res st i))) ids)).
            { clear -PK AT KEY. induction ids as [|i ids IH]; [reflexivity|]. destruct (PK i (or_introl eq_refl)) as (o & IO & ID & _ & P). cbn [List.map filter]. rewrite P.
              destruct (KEY o IO) as (q & PQ & _). assert (A := AT o IO). rewrite PQ in A |- *. rewrite path_keys_keys, A, ID. specialize (IH (fun j IJ => PK j (or_intror IJ))).
              destruct (is_null (a_res st i)); cbn [negb List.length]; rewrite IH; reflexivity. }
            rewrite CNT. clear CNT. destruct (C52_groups _ _ _ _ _ _ _ _ _ _ _ g RUN IN GE) as [U RQG].
            destruct (count_one (fun i => negb (is_null (a_res st i))) ids) as [[E N] | [E N]].
            + apply NoDup_nodup.
            + intros i j II IJ NI1 NI2. subst ids. rewrite nodup_In in II, IJ. apply Bool.negb_true_iff in NI1, NI2. apply is_null_false in NI1, NI2. now apply U.
            + left. exact N.
            + right. split; [exact N|]. destruct (g_required g) eqn:GQ; [|reflexivity]. exfalso. destruct (RQG eq_refl) as (i & II & NN).
              assert (X : existsb (fun i => negb (is_null (a_res st i))) ids = true); [|congruence]. apply existsb_exists. exists i. subst ids. rewrite nodup_In. split; [exact II|]. apply Bool.negb_true_iff. now apply is_null_false. }
        assert (ALL' := ALL (d_groups d) (incl_refl _)). fold L in ALL'. rewrite ALL'. cbn [next rbind]. unfold validate_any, validate_one, validate_not. rewrite !NI by reflexivity. reflexivity.
Qed.
Print Assumptions C53_valid_partial.

(** ** A case *)
(** -o has a text of one byte or more, -n has numbers from 0 to 9, one to three of them, -a and -b exclude each other, and there is an argument with a default. *)
Definition s53_d : adesc :=
  let d := or_new (
    do d <- add_option a_new (s2b "verbose") (chr "v") (s2b "verbose") [] ACount;
    do d <- add_option d (s2b "out/name") (chr "o") [] [] AStore;
    do d <- add_option d (s2b "out/numbers") (chr "n") [] [] AAppend;
    do d <- add_option d (s2b "a") (chr "a") [] [] AStoreTrue;
    do d <- add_option d (s2b "mode/b") (chr "b") [] [] AStoreConst;
    do d <- add_argument d (s2b "to") [] AStore;
    Ok (set_key 257 "default" (VStr (s2b "here")) (set_key (chr "b") "const" (VInt 7) (set_key (chr "n") "minArgs" (VInt 1) (set_key (chr "n") "maxArgs" (VInt 3)
      (set_key (chr "o") "minLength" (VUns 1) (set_key (chr "n") "minimum" (VInt 0) (set_key (chr "n") "maximum" (VInt 9)
      (set_fields (chr "n") AAppend IntegerType false (set_fields (chr "o") AStore StringType true d)))))))))) in
  ADesc (d_opts d) (d_args d) [AGroup (s2b "g") [chr "a"; chr "b"] false true] (d_count d) (d_resolve d).
Definition s53_run (evs : list gev) : aout := a_run no_flt no_rx no_env no_load no_stale s53_d 0 evs [] a_init.
Definition s53_valid (d : adesc) (l : list aopt) (r : res value) : res sctx := do r <- r; do s <- gen_schema d l; schema_validate no_rx (fun _ => Throw RuntimeError) 100 s r.
Definition s53_evs : list gev := [GOpt (chr "o") (Some (s2b "f")); GOpt (chr "n") (Some (s2b "3")); GOpt (chr "b") None; GOpt (chr "n") (Some (s2b "5"))].
Lemma sound_simple rx o : In (o_type o) [NullType; BoolType; IntegerType; UnsignedType; FloatType; StringType] ->
  forallb (fun k => match mget (s2b k) (o_opt o) with Some b => number b | None => true end) ["minimum"; "maximum"]%string = true ->
  forallb (fun k => match mget (s2b k) (o_opt o) with Some (VInt z) => ((0 <=? z) && (z <? 2^63))%Z%bool | Some (VUns n) => n <? 2^64 | Some _ => false | None => true end) ["minLength"; "maxLength"; "minArgs"; "maxArgs"]%string = true ->
  mget (s2b "pattern") (o_opt o) = None -> mget (s2b "enum") (o_opt o) = None ->
  (forall v, mget (s2b "default") (o_opt o) = Some v -> o_action o = AStore /\ o_type o = NullType /\ meets rx o v) -> sound rx o.
Proof.
  intros T B C P E D. constructor.
  - exact T.
  - intros k b I G. rewrite forallb_forall in B. specialize (B k I). cbv beta in B. rewrite G in B. destruct b; try discriminate; eauto.
  - intros k b I G. rewrite forallb_forall in C. specialize (C k I). cbv beta in C. rewrite G in C. destruct b as [| |z|n| | | | |]; try discriminate; cbn [vok count_of].
    + apply Bool.andb_true_iff in C. destruct C as [C1 C2]. apply Z.leb_le in C1. apply Z.ltb_lt in C2. destruct (Z.leb_spec 0 z); [|lia]. split; [lia|discriminate].
    + apply N.ltb_lt in C. split; [exact C|discriminate].
  - congruence.
  - congruence.
  - intros v G. destruct (D v G) as (-> & -> & M). split; [exact I|exact M].
Qed.
Example C53_case : exists st r schema, P_ArgParse.plain s53_d /\ NoDup (List.map o_id (d_opts s53_d)) /\ ForallOrdPairs (fun a b => diverge (o_path b) (o_path a)) (d_opts s53_d) /\
  (forall o, In o (d_opts s53_d) -> sound no_rx o /\ vok (a_res st (o_id o)) /\ exists ks, o_path o = List.map PKey ks /\ ks <> [] /\ (List.length ks <= 95)%nat) /\
  (forall g, In g (d_groups s53_d) -> incl (g_members g) (List.map o_id (d_opts s53_d))) /\
  s53_run s53_evs = Done st /\ a_form s53_d st = Ok r /\ r = VMap [(s2b "mode", VMap [(s2b "b", VInt 7)]); (s2b "out", VMap [(s2b "name", VStr (s2b "f")); (s2b "numbers", VList [VInt 3; VInt 5])]); (s2b "to", VStr (s2b "here")); (s2b "verbose", VUns 0)] /\
  d_opts s53_d <> [] /\ NoDup (d_opts s53_d) /\ gen_schema s53_d (d_opts s53_d) = Ok schema /\ vat schema [PKey (s2b "properties"); PKey (s2b "out"); PKey (s2b "required")] = Some (VList [VStr (s2b "name")]).
Proof.
  destruct (s53_run s53_evs) as [st| |] eqn:E; [|exfalso; vm_compute in E; discriminate..].
  destruct (gen_schema s53_d (d_opts s53_d)) as [schema| | | |] eqn:G; [|exfalso; vm_compute in G; discriminate..].
  exists st, (VMap [(s2b "mode", VMap [(s2b "b", VInt 7)]); (s2b "out", VMap [(s2b "name", VStr (s2b "f")); (s2b "numbers", VList [VInt 3; VInt 5])]); (s2b "to", VStr (s2b "here")); (s2b "verbose", VUns 0)]), schema.
  assert (R : List.map (fun o => a_res st (o_id o)) (d_opts s53_d) = [VNull; VInt 7; VList [VInt 3; VInt 5]; VStr (s2b "f"); VUns 0; VStr (s2b "here")]).
  { assert (X : match s53_run s53_evs with Done st => List.map (fun o => a_res st (o_id o)) (d_opts s53_d) | _ => [] end = [VNull; VInt 7; VList [VInt 3; VInt 5]; VStr (s2b "f"); VUns 0; VStr (s2b "here")]) by (vm_compute; reflexivity). now rewrite E in X. }
  assert (FM : match s53_run s53_evs with Done st => a_form s53_d st | _ => Fuel end = Ok (VMap [(s2b "mode", VMap [(s2b "b", VInt 7)]); (s2b "out", VMap [(s2b "name", VStr (s2b "f")); (s2b "numbers", VList [VInt 3; VInt 5])]); (s2b "to", VStr (s2b "here")); (s2b "verbose", VUns 0)])) by (vm_compute; reflexivity).
  rewrite E in FM.
  assert (GA : match gen_schema s53_d (d_opts s53_d) with Ok s => vat s [PKey (s2b "properties"); PKey (s2b "out"); PKey (s2b "required")] | _ => None end = Some (VList [VStr (s2b "name")])) by (vm_compute; reflexivity). rewrite G in GA.
  split. { intros o I. clear -I. vm_compute in I. repeat (destruct I as [<- | I]; [cbn; intuition discriminate|]). destruct I. }
  assert (ND : NoDup (List.map o_id (d_opts s53_d))) by (vm_compute; repeat constructor; cbn; intuition discriminate).
  split; [exact ND|]. split.
  { clear. vm_compute. repeat first [apply FOP_nil | apply FOP_cons | apply Forall_nil | apply Forall_cons];
      first [eexists [], _, _, _, _; split; [reflexivity|]; split; [reflexivity|discriminate] | eexists [_], _, _, _, _; split; [reflexivity|]; split; [reflexivity|discriminate]]. }
  split.
  { intros o I. assert (V : vok (a_res st (o_id o))).
    { assert (X : In (a_res st (o_id o)) (List.map (fun o => a_res st (o_id o)) (d_opts s53_d))) by exact (in_map (fun o => a_res st (o_id o)) _ _ I). rewrite R in X.
      cbn [In] in X. clear -X. repeat (destruct X as [<- | X]; [cbn; repeat split; lia|]). destruct X. }
    clear -I V. split; [|split; [exact V|]].
    - apply sound_simple; clear V; vm_compute in I; repeat (destruct I as [<- | I]; [try (vm_compute; tauto); try reflexivity; try (intros v X; vm_compute in X; try discriminate X)|]); try destruct I.
      injection X as <-. split; [reflexivity|]. split; [reflexivity|]. constructor; intros; try discriminate.
    - clear V. assert (X : forallb (fun o => (forallb (fun e => match e with PKey _ => true | PIdx _ => false end) (o_path o) && negb (Nat.eqb (List.length (o_path o)) 0) && Nat.leb (List.length (o_path o)) 95)%bool) (d_opts s53_d) = true) by (vm_compute; reflexivity).
      rewrite forallb_forall in X. specialize (X o I). clear I. apply Bool.andb_true_iff in X. destruct X as [X L]. apply Bool.andb_true_iff in X. destruct X as [X NZ]. exists (path_keys (o_path o)).
      assert (Q : forall p, forallb (fun e => match e with PKey _ => true | PIdx _ => false end) p = true -> p = List.map PKey (path_keys p)).
      { clear. induction p as [|[k|i] p IH]; intros H; [reflexivity| |discriminate]. cbn in H |- *. f_equal. now apply IH. }
      split; [now apply Q|]. split; [|unfold path_keys; rewrite map_length; now apply Nat.leb_le]. intros N. apply (f_equal (@List.length _)) in N. unfold path_keys in N. rewrite map_length in N. cbn in N. rewrite N in NZ. discriminate. }
  split. { intros g [<- | []]. clear. intros i I. vm_compute in I |- *. intuition. }
  split; [reflexivity|]. split; [exact FM|]. split; [reflexivity|]. split; [vm_compute; discriminate|]. split; [|split; [reflexivity|exact GA]].
  apply (NoDup_map_inv o_id). exact ND.
Qed.
(** The schema refuses what the parser does not return. *)
Example C53_case_refused : s53_valid s53_d (d_opts s53_d) (Ok (VMap [(s2b "a", VBool true); (s2b "mode", VMap [(s2b "b", VInt 7)]); (s2b "out", VMap [(s2b "name", VStr (s2b "f"))])])) = Ok (SCtx true false) /\
  s53_valid s53_d (d_opts s53_d) (Ok (VMap [(s2b "out", VMap [(s2b "numbers", VList [VInt 3])])])) = Ok (SCtx true false) /\
  s53_valid s53_d (d_opts s53_d) (Ok (VMap [(s2b "out", VMap [(s2b "name", VStr (s2b "f")); (s2b "numbers", VList [VInt 10])])])) = Ok (SCtx true false) /\
  s53_valid s53_d (d_opts s53_d) (Ok (VMap [(s2b "out", VMap [(s2b "name", VStr (s2b "f"))])])) = Ok no_errors.
Proof. vm_compute. auto. Qed.

(** ** What is not so *)
Definition valid1 (rx : bytes -> option (bytes -> bool)) (d : adesc) (evs : list gev) : res sctx :=
  match a_run no_flt rx no_env no_load no_stale d 0 evs [] a_init with
  | Done st => do r <- a_form d st; do s <- gen_schema d (d_opts d); schema_validate rx (fun _ => Throw RuntimeError) 200 s r
  | _ => Fuel
  end.
(** A default is not looked at by the parser: it may be too large, or of another type. *)
Theorem C53_default_refuted : exists d, d = set_key (chr "n") "default" (VInt 5) (set_key (chr "n") "maximum" (VInt 3) (one "n" "n" AStore IntegerType)) /\ valid1 no_rx d [] = Ok (SCtx true false).
Proof. eexists. split; [reflexivity|]. vm_compute. reflexivity. Qed.
Print Assumptions C53_default_refuted.
(** The type of an option that is a list is written as "null" (src/ArgParse.cc:187-192). *)
Theorem C53_type_refuted : exists d, d = one "n" "n" AStore ListType /\ run1 d no_env [GOpt (chr "n") (Some (s2b "x"))] = (Some (Ok (VMap [(s2b "n", VStr (s2b "x"))])), 0) /\ valid1 no_rx d [GOpt (chr "n") (Some (s2b "x"))] = Ok (SCtx true false).
Proof. eexists. split; [reflexivity|]. vm_compute. auto. Qed.
Print Assumptions C53_type_refuted.
(** A number as a pattern is text for the parser, and an error in a schema. *)
Theorem C53_pattern_refuted : exists d rx, d = set_key (chr "s") "pattern" (VInt 5) (one "s" "s" AStore StringType) /\ rx = (fun _ : bytes => Some (fun _ : bytes => true)) /\ valid1 rx d [GOpt (chr "s") (Some (s2b "5"))] = Ok (SCtx false true).
Proof. do 2 eexists. do 2 (split; [reflexivity|]). vm_compute. reflexivity. Qed.
Print Assumptions C53_pattern_refuted.
(** A least length below zero is no demand for the parser, and can never be met under a schema. *)
Theorem C53_length_refuted : exists d, d = set_key (chr "s") "minLength" (VInt (-1)) (one "s" "s" AStore StringType) /\ valid1 no_rx d [GOpt (chr "s") (Some (s2b "abc"))] = Ok (SCtx true false).
Proof. eexists. split; [reflexivity|]. vm_compute. reflexivity. Qed.
Print Assumptions C53_length_refuted.
(** Without a constant the parser comes back as long as the option is not given, but there is no schema. *)
Theorem C53_const_refuted : exists d, d = one "c" "c" AStoreConst NullType /\ run1 d no_env [] = (Some (Ok (VMap [])), 0) /\ gen_schema d (d_opts d) = Throw KeyError.
Proof. eexists. split; [reflexivity|]. vm_compute. auto. Qed.
Print Assumptions C53_const_refuted.
(** Two options of which one lies under the other: what the parser returns is never valid if only the lower one is given. *)
Theorem C53_through_refuted : exists d, d = set_fields (chr "a") AStore StringType false (or_new (do d <- add_option a_new (s2b "a") (chr "a") [] [] AStore; add_option d (s2b "a/b") (chr "b") [] [] AStore)) /\
  run1 d no_env [GOpt (chr "b") (Some (s2b "x"))] = (Some (Ok (VMap [(s2b "a", VMap [(s2b "b", VStr (s2b "x"))])])), 0) /\ valid1 no_rx d [GOpt (chr "b") (Some (s2b "x"))] = Ok (SCtx true false).
Proof. eexists. split; [reflexivity|]. vm_compute. auto. Qed.
Print Assumptions C53_through_refuted.
(** A path of a hundred keys is too deep for validation (src/Schema.cc:38). *)
Theorem C53_deep_refuted : exists d k, k = List.concat (repeat (s2b "k/") 99) ++ s2b "k" /\ d = or_new (add_option a_new k (chr "k") [] [] AStore) /\
  fst (run1 d no_env [GOpt (chr "k") (Some (s2b "x"))]) <> None /\ valid1 no_rx d [GOpt (chr "k") (Some (s2b "x"))] = Ok (SCtx false true).
Proof. do 2 eexists. split; [reflexivity|]. split; [reflexivity|]. split; [vm_compute; discriminate|vm_compute; reflexivity]. Qed.
Print Assumptions C53_deep_refuted.
(** What comes from a configuration file is not converted. *)
Theorem C53_config_refuted : exists d v st r, d = with_config AStore IntegerType /\ v = VMap [(s2b "n", VStr (s2b "abc"))] /\ run_config d v 1 = Done st /\ a_form d st = Ok r /\
  (do s <- gen_schema d (d_opts d); schema_validate no_rx (fun _ => Throw RuntimeError) 100 s r) = Ok (SCtx true false).
Proof.
  destruct (run_config (with_config AStore IntegerType) (VMap [(s2b "n", VStr (s2b "abc"))]) 1) as [st| |] eqn:E; [|exfalso; vm_compute in E; discriminate..].
  assert (X : match run_config (with_config AStore IntegerType) (VMap [(s2b "n", VStr (s2b "abc"))]) 1 with Done st => a_form (with_config AStore IntegerType) st | _ => Fuel end = Ok (VMap [(s2b "n", VStr (s2b "abc"))])) by (vm_compute; reflexivity).
  rewrite E in X. do 2 eexists. exists st. eexists. split; [reflexivity|]. split; [reflexivity|]. split; [exact E|]. split; [exact X|]. vm_compute. reflexivity.
Qed.
Print Assumptions C53_config_refuted.
