(** C54: the parameters of an emitter are what they were set to. *)
From Verif Require Import Base CNum Float Value Convert Numeric Emit JSONEmitter EmitParams.
Open Scope N_scope.

(** ** What is claimed *)
(** What the documentation (include/Variant/Emitter.h:172-217) says a parameter is. *)
Inductive kind := KBool | KUns | KInt.
(** The documented parameters of a format, but for the styles of YAML and for "strict" of JSON. *)
Definition documented (f : format) : list (bytes * kind) :=
  match f with
  | FJson | FXml => [(s2b "pretty", KBool); (s2b "indent", KUns); (s2b "precision", KUns)]
  | FYaml => [(s2b "implicit_document_begin", KBool); (s2b "implicit_document_end", KBool); (s2b "indent", KInt); (s2b "width", KInt); (s2b "precision", KUns)]
  | FBundle => [(s2b "precision", KUns)]
  | FMsgPack => []
  end.
(** The three parameters of YAML that are styles, with the documented names. *)
Definition styles : list (bytes * list bytes) :=
  [(s2b "scalar_style", [s2b "any"; s2b "plain"; s2b "single quoted"; s2b "double quoted"; s2b "literal"; s2b "folded"]);
   (s2b "map_style", [s2b "any"; s2b "block"; s2b "flow"]); (s2b "list_style", [s2b "any"; s2b "block"; s2b "flow"])].
Definition format_of (e : emitter) : format :=
  match e with EJson _ => FJson | EYaml _ _ _ => FYaml | EXml _ _ => FXml | EBundle _ => FBundle | EMsgPack => FMsgPack end.
(** A value of the kind that a 32-bit variable holds. *)
Definition holds (k : kind) (v : value) : Prop :=
  match k with
  | KBool => exists b, v = VBool b
  | KUns => exists n, v = VUns n /\ n < 4294967296
  | KInt => exists z, v = VInt z /\ (-2147483648 <= z < 2147483648)%Z
  end.
(** Any value as a parameter of the kind: what Variant's conversion makes of it, the low 32 bits of a number. *)
Definition becomes (k : kind) (v w : value) : Prop :=
  match k with
  | KBool => exists b, as_bool v = Ok b /\ w = VBool b
  | KUns => exists n, as_uns v = Ok n /\ w = VUns (n mod 4294967296)
  | KInt => exists z d, as_int v = Ok z /\ w = VInt (z + 4294967296 * d) /\ (-2147483648 <= z + 4294967296 * d < 2147483648)%Z
  end.
(** The parameter as given to a constructor; a map has its keys in order. *)
Definition given (params : value) (k : bytes) : option value := match params with VMap m => mget k m | _ => None end.
Definition vsorted_map (params : value) : Prop := match params with VMap m => msorted m | _ => True end.
(** The style that an emitter uses for one of the three parameters, by name. *)
Definition in_use (e : emitter) (key : bytes) : option bytes :=
  match e with
  | EYaml y _ _ =>
      if beqb key (s2b "scalar_style") then nth_error [s2b "any"; s2b "plain"; s2b "single quoted"; s2b "double quoted"; s2b "literal"; s2b "folded"] (N.to_nat (y_scalar y))
      else if beqb key (s2b "map_style") then nth_error [s2b "any"; s2b "block"; s2b "flow"] (N.to_nat (y_map y))
      else if beqb key (s2b "list_style") then nth_error [s2b "any"; s2b "block"; s2b "flow"] (N.to_nat (y_list y))
      else None
  | _ => None
  end.
(** The variable that an emitter writes with, under the documented name: src/JSONEmitter.cc uses pretty, num_indent,
    numeric_precision and strict, src/YAMLEmitter.cc:184-188, 203, 218, 339 the members of conf, src/BundleHdrEmitter.cc:108
    numeric_precision. *)
Definition uses (e : emitter) (k : bytes) : value :=
  match e with
  | EJson p =>
      if beqb k (s2b "pretty") then VBool (j_pretty p) else if beqb k (s2b "strict") then VBool (j_strict p)
      else if beqb k (s2b "indent") then VUns (j_indent p) else if beqb k (s2b "precision") then VUns (j_prec p) else VNull
  | EYaml y _ _ =>
      if beqb k (s2b "implicit_document_begin") then VBool (y_begin y) else if beqb k (s2b "implicit_document_end") then VBool (y_end y)
      else if beqb k (s2b "indent") then VInt (y_indent y) else if beqb k (s2b "width") then VInt (y_width y)
      else if beqb k (s2b "precision") then VUns (y_prec y) else VNull
  | EXml x _ =>
      if beqb k (s2b "pretty") then VBool (x_pretty x) else if beqb k (s2b "indent") then VUns (x_indent x)
      else if beqb k (s2b "precision") then VUns (x_prec x) else VNull
  | EBundle n => if beqb k (s2b "precision") then VUns n else VNull
  | EMsgPack => VNull
  end.
(** What the writer of libxml was last told is what the parameters say. *)
Definition in_step (e : emitter) : Prop :=
  match e with
  | EXml x h => (x_pretty x = false -> h = 0%Z) /\ (x_pretty x = true -> x_indent x < 2147483648 -> h = Z.of_N (x_indent x)) /\ h = xml_handed x
  | _ => True
  end.
(** The numbers of an emitter are those of 32-bit variables. *)
Definition fits (e : emitter) : Prop :=
  match e with
  | EJson p => j_indent p < 4294967296 /\ j_prec p < 4294967296
  | EYaml y _ _ => (-2147483648 <= y_indent y < 2147483648)%Z /\ (-2147483648 <= y_width y < 2147483648)%Z /\ y_prec y < 4294967296 /\ y_scalar y < 6 /\ y_map y < 3 /\ y_list y < 3
  | EXml x _ => x_indent x < 4294967296 /\ x_prec x < 4294967296
  | EBundle n => n < 4294967296
  | EMsgPack => True
  end.

(** ** Proofs *)
Lemma cut_in z : (-2147483648 <= z < 2147483648)%Z -> cut_signed 32 z = z.
Proof.
  intros H. unfold cut_signed. change (2 ^ 32)%Z with 4294967296%Z. change (2 ^ (32 - 1))%Z with 2147483648%Z. cbv zeta.
  destruct (Z.ltb_spec (z mod 4294967296) 2147483648) as [L|L];
    pose proof (Z.div_mod z 4294967296 ltac:(lia)); pose proof (Z.mod_pos_bound z 4294967296 ltac:(lia)); lia.
Qed.
Lemma cut_range z : exists d, cut_signed 32 z = (z + 4294967296 * d)%Z /\ (-2147483648 <= cut_signed 32 z < 2147483648)%Z.
Proof.
  unfold cut_signed. change (2 ^ 32)%Z with 4294967296%Z. change (2 ^ (32 - 1))%Z with 2147483648%Z. cbv zeta.
  pose proof (Z.div_mod z 4294967296 ltac:(lia)) as D; pose proof (Z.mod_pos_bound z 4294967296 ltac:(lia)).
  destruct (Z.ltb_spec (z mod 4294967296) 2147483648) as [L|L].
  - exists (- (z / 4294967296))%Z. lia.
  - exists (- (z / 4294967296) - 1)%Z. lia.
Qed.
Lemma wrap32_lt n : wrap32 n < 4294967296.
Proof. unfold wrap32. change (2 ^ 32) with 4294967296. apply N.mod_lt. lia. Qed.
Lemma uns_becomes v n : to_unsigned v = Ok n -> becomes KUns v (VUns n) /\ n < 4294967296.
Proof.
  unfold to_unsigned. destruct (as_uns v) as [u| | | |] eqn:E; cbn; try discriminate. intros [= <-]. split; [|apply wrap32_lt]. exists u. auto.
Qed.
Lemma int_becomes v z : to_int v = Ok z -> becomes KInt v (VInt z) /\ (-2147483648 <= z < 2147483648)%Z.
Proof.
  unfold to_int. destruct (as_int v) as [u| | | |] eqn:E; cbn; try discriminate. intros [= <-]. destruct (cut_range u) as (d & D & R).
  split; [|exact R]. exists u, d. rewrite D in *. split; [exact E|]. split; [reflexivity|exact R].
Qed.
Lemma bool_becomes v b : as_bool v = Ok b -> becomes KBool v (VBool b).
Proof. intros E. exists b. auto. Qed.
Lemma index_lt s l : forall i j, index_of i s l = Some j -> i <= j < i + N.of_nat (List.length l).
Proof.
  induction l as [|n t IH]; intros i j; cbn [index_of List.length]; [discriminate|]. destruct (beqb n s); [intros [= <-]; lia|].
  intros H. apply IH in H. lia.
Qed.
Lemma index_name s l : forall i j, index_of i s l = Some j -> nth_error l (N.to_nat (j - i)) = Some s.
Proof.
  induction l as [|n t IH]; intros i j; cbn [index_of]; [discriminate|]. destruct (beqb n s) eqn:E.
  - intros [= <-]. rewrite N.sub_diag. apply beqb_eq in E. subst. reflexivity.
  - intros H. pose proof (index_lt _ _ _ _ H). apply IH in H. replace (N.to_nat (j - i)) with (S (N.to_nat (j - (i + 1)))) by lia. exact H.
Qed.
Lemma index_none s l : forall i, index_of i s l = None <-> ~ In s l.
Proof.
  induction l as [|n t IH]; intros i; cbn [index_of In]; [tauto|]. destruct (beqb n s) eqn:E.
  - apply beqb_eq in E. split; [discriminate|]. intros H. destruct H. auto.
  - apply beqb_neq in E. rewrite IH. tauto.
Qed.

Ltac conv_cases :=
  match goal with
  | |- context [as_bool ?v] => destruct (as_bool v) eqn:?
  | |- context [to_unsigned ?v] => destruct (to_unsigned v) eqn:?
  | |- context [to_int ?v] => destruct (to_int v) eqn:?
  | |- context [as_string ?v] => destruct (as_string v) eqn:?
  end.
Ltac keys :=
  match goal with
  | |- context [beqb ?a ?b] => destruct (beqb a b) eqn:?
  end.

Lemma idx8 k i : index_of 0 k param_keys = Some i -> i = 0 \/ i = 1 \/ i = 2 \/ i = 3 \/ i = 4 \/ i = 5 \/ i = 6 \/ i = 7.
Proof. intros H. apply index_lt in H. cbn in H. lia. Qed.
Ltac eight H := let E := fresh in pose proof (idx8 _ _ H) as E; destruct E as [-> | [-> | [-> | [-> | [-> | [-> | [-> | ->]]]]]]].

(** One SetParam. *)
Record one (e : emitter) (k : bytes) (v : value) (e' : emitter) (r : res unit) : Prop := {
  on_format : format_of e' = format_of e;
  on_fail : r <> Ok tt -> e' = e;
  on_fits : fits e -> fits e';
  on_step : in_step e -> in_step e';
  on_other : forall k', k' <> k -> get_param e' k' = get_param e k';
  on_self : forall kd, In (k, kd) (documented (format_of e)) -> r = Ok tt -> becomes kd v (get_param e' k);
  on_style : forall k', k' <> k -> in_use e' k' = in_use e k' }.

Lemma xml_in_step x : in_step (xml_update x).
Proof.
  unfold xml_update, in_step, xml_handed. destruct (x_pretty x); (split; [|split]); intros; try discriminate; try reflexivity.
  apply cut_in. lia.
Qed.
Lemma one_same e k v r : (forall kd, In (k, kd) (documented (format_of e)) -> r = Ok tt -> False) -> one e k v e r.
Proof. intros H. split; auto. intros kd I R. destruct (H kd I R). Qed.

Ltac known := match goal with H : beqb _ _ = true |- _ => apply beqb_eq in H end.
Ltac unknown := repeat match goal with H : beqb _ _ = false |- _ => apply beqb_neq in H end.
Ltac neq := match goal with H : ?k' <> ?k |- context [beqb ?k' ?k] => rewrite (proj2 (beqb_neq k' k) H) end.

Lemma set_one e k v e' r : set_param e k v = (e', r) -> one e k v e' r.
Proof.
  destruct e as [p|y ti tw|x h|n|]; cbn [set_param].
  - destruct (beqb k (s2b "pretty")) eqn:E1; [|destruct (beqb k (s2b "indent")) eqn:E2; [|destruct (beqb k (s2b "precision")) eqn:E3]].
    4: { intros [= <- <-]. apply one_same. intros kd I _. unknown. cbn [In documented format_of] in I. destruct I as [I|[I|[I|[]]]]; apply (f_equal fst) in I; cbn [fst] in I; congruence. }
    all: known; subst k; unfold assign; conv_cases; intros [= <- <-]; try (apply one_same; intros ? ? [=]; fail).
    all: split; try reflexivity; try congruence; try (intros [? ?]; split; cbn; eauto using uns_becomes; fail).
    all: try (intros k' N; cbn [get_param]; neq; reflexivity).
    all: try (intros [? ?]; split; cbn; try assumption; apply (proj2 (uns_becomes _ _ ltac:(eassumption)))).
    all: try (intros kd I _; cbn in I; destruct I as [I|[I|[I|[]]]]; try discriminate I; injection I as <-).
    all: cbn [get_param beqb]; try (apply bool_becomes; assumption); try (apply uns_becomes; assumption).
    all: intros k' N; cbn [get_param in_use]; try reflexivity; repeat keys; try reflexivity; repeat known; congruence.
  - destruct (index_of 0 k param_keys) as [i|] eqn:Ei.
    + assert (F : forall k', k' <> k -> index_of 0 k' param_keys <> Some i) by (intros k' N Q; apply index_name in Q, Ei; congruence).
      assert (Ek := index_name _ _ _ _ Ei).
      eight Ei; injection Ek as <-; unfold yaml_set, assign; conv_cases; intros Q; apply pair_equal_spec in Q; destruct Q as [<- <-]; try (apply one_same; intros ? ? [=]; fail).
      1-3: match goal with |- context [index_of 0 ?s ?l] => destruct (index_of 0 s l) as [j|] eqn:Ej; [apply index_lt in Ej; cbn in Ej|] end.
      all: try (apply one_same; intros kd I _; cbn in I; repeat (destruct I as [I|I]; [discriminate I|]); destruct I).
      all: split; try reflexivity; try congruence.
      all: try (intros (? & ? & ? & ? & ? & ?); cbn; repeat split; try assumption; try lia; try (apply (int_becomes _ _ ltac:(eassumption))); try (apply (uns_becomes _ _ ltac:(eassumption))); fail).
      all: try (intros kd I _; cbn in I; repeat (destruct I as [I|I]; [try discriminate I; injection I as <-; (apply bool_becomes || apply int_becomes || apply uns_becomes); assumption|]); destruct I).
      all: intros k' N; try (cbn [in_use]; repeat keys; try reflexivity; known; exact (False_ind _ (N ltac:(assumption)))).
      all: cbn [get_param]; destruct (index_of 0 k' param_keys) as [i'|] eqn:Ei'; [|reflexivity]; specialize (F k' N); rewrite Ei' in F; eight Ei'; try reflexivity; destruct F; reflexivity.
    + intros [= <- <-]. apply one_same. intros kd I _. apply index_none in Ei. apply Ei. cbn [In documented format_of param_keys] in I |- *.
      repeat (destruct I as [I|I]; [apply (f_equal fst) in I; cbn [fst] in I; tauto|]). destruct I.
  - destruct (beqb k (s2b "pretty")) eqn:E1; [|destruct (beqb k (s2b "indent")) eqn:E2; [|destruct (beqb k (s2b "precision")) eqn:E3]].
    4: { intros [= <- <-]. split; try reflexivity; try congruence; try (intros ?; apply xml_in_step); auto. intros kd I _. unknown. cbn [In documented format_of] in I. destruct I as [I|[I|[I|[]]]]; apply (f_equal fst) in I; cbn [fst] in I; congruence. }
    all: known; subst k; unfold assign; conv_cases; intros [= <- <-]; try (apply one_same; intros ? ? [=]; fail).
    all: split; try reflexivity; try congruence; try (intros ?; apply xml_in_step).
    all: try (intros [? ?]; split; cbn; try assumption; apply (proj2 (uns_becomes _ _ ltac:(eassumption)))).
    all: try (intros kd I _; cbn in I; destruct I as [I|[I|[I|[]]]]; try discriminate I; injection I as <-).
    all: unfold xml_update; cbn [get_param beqb]; try (apply bool_becomes; assumption); try (apply uns_becomes; assumption).
    all: intros k' N; cbn [get_param in_use]; try reflexivity; repeat keys; try reflexivity; repeat known; congruence.
  - destruct (beqb k (s2b "precision")) eqn:E3.
    + known; subst k; unfold assign; conv_cases; intros [= <- <-]; try (apply one_same; intros ? ? [=]; fail).
      split; try reflexivity; try congruence.
      * intros _. apply (proj2 (uns_becomes _ _ Heqr0)).
      * intros k' N. cbn [get_param]. neq. reflexivity.
      * intros kd [I|[]] _. injection I as <-. apply uns_becomes. assumption.
    + intros [= <- <-]. apply one_same. intros kd [I|[]] _. unknown. apply (f_equal fst) in I; cbn [fst] in I; congruence.
  - intros [= <- <-]. apply one_same. intros kd [].
Qed.

(** A conversion that succeeds is all that SetParam needs. *)
Lemma set_ok e k kd v w : In (k, kd) (documented (format_of e)) -> becomes kd v w -> snd (set_param e k v) = Ok tt.
Proof.
  assert (B : forall b, as_bool v = Ok b -> forall e f, snd (assign e (as_bool v) f) = Ok tt) by (intros b -> ? ?; reflexivity).
  assert (U : forall n, as_uns v = Ok n -> forall e f, snd (assign e (to_unsigned v) f) = Ok tt) by (unfold to_unsigned; intros n -> ? ?; reflexivity).
  assert (I : forall z, as_int v = Ok z -> forall e f, snd (assign e (to_int v) f) = Ok tt) by (unfold to_int; intros z -> ? ?; reflexivity).
  destruct e; cbn [documented format_of In]; intros H W; repeat (destruct H as [H|H]; [injection H as <- <-|]); try destruct H; cbn in W.
  all: cbn -[assign]; try (destruct W as (? & ? & Q & _); eapply I; exact Q); destruct W as (? & Q & _); (eapply B; exact Q) || (eapply U; exact Q).
Qed.
Lemma holds_becomes kd v : holds kd v -> becomes kd v v.
Proof.
  destruct kd; cbn.
  - intros [b ->]. exists b. auto.
  - intros (n & -> & L). exists n. cbn. rewrite N.mod_small by exact L. auto.
  - intros (z & -> & L). exists z, 0%Z. cbn. rewrite Z.add_0_r. auto.
Qed.
Lemma becomes_fun kd v w w' : becomes kd v w -> becomes kd v w' -> w = w'.
Proof.
  destruct kd; unfold becomes.
  - intros (b & E & ->) (b' & E' & ->). congruence.
  - intros (b & E & ->) (b' & E' & ->). congruence.
  - intros (b & d & E & -> & R) (b' & d' & E' & -> & R'). rewrite E in E'. injection E' as <-.
    replace d' with d by lia. reflexivity.
Qed.

(** SetParams of either sort is one SetParam for each of a list of entries. *)
Fixpoint picked (names : list bytes) (m : list (bytes * value)) : list (bytes * value) :=
  match names with [] => [] | k :: t => match mget k m with Some v => (k, v) :: picked t m | None => picked t m end end.
Lemma named_each m names : forall e, set_named e names m = set_each e (picked names m).
Proof.
  induction names as [|k t IH]; intros e; cbn [set_named picked]; [reflexivity|]. destruct (mget k m) as [v|]; [|apply IH].
  cbn [set_each]. destruct (set_param e k v) as [e' [[]| | | |]]; try reflexivity. apply IH.
Qed.
Lemma picked_in m names k : In k (map fst (picked names m)) -> In k names.
Proof. induction names as [|n t IH]; cbn; [tauto|]. destruct (mget n m); cbn; tauto. Qed.
Lemma picked_get m names k : In k names -> mget k (picked names m) = mget k m.
Proof.
  induction names as [|n t IH]; cbn; [tauto|]. intros H. destruct (beqb k n) eqn:E.
  - apply beqb_eq in E. subst n. destruct (mget k m) as [v|] eqn:G; cbn; [rewrite beqb_refl; reflexivity|].
    clear IH H. induction t as [|n t IH]; cbn; [reflexivity|]. destruct (mget n m) eqn:G'; [|exact IH]. cbn.
    destruct (beqb k n) eqn:E; [apply beqb_eq in E; subst; congruence|exact IH].
  - apply beqb_neq in E. destruct H as [->|H]; [congruence|]. destruct (mget n m); cbn; [rewrite (proj2 (beqb_neq k n) E)|]; apply IH, H.
Qed.
Lemma picked_nodup m names : NoDup names -> NoDup (map fst (picked names m)).
Proof.
  induction 1 as [|n t N _ IH]; cbn; [constructor|]. destruct (mget n m); [|exact IH]. cbn. constructor; [|exact IH].
  intros H. apply N. eapply picked_in. exact H.
Qed.
Lemma none_notin {A} k (l : list (bytes * A)) : ~ In k (map fst l) -> mget k l = None.
Proof. induction l as [|[n v] t IH]; cbn; [reflexivity|]. intros H. destruct (beqb k n) eqn:E; [apply beqb_eq in E; subst; tauto|]. tauto. Qed.

Record each (e : emitter) (l : list (bytes * value)) (e' : emitter) (r : res unit) : Prop := {
  ea_format : format_of e' = format_of e;
  ea_fits : fits e -> fits e';
  ea_step : in_step e -> in_step e';
  ea_absent : forall k, mget k l = None -> get_param e' k = get_param e k /\ in_use e' k = in_use e k;
  ea_present : forall k kd v, In (k, kd) (documented (format_of e)) -> mget k l = Some v -> r = Ok tt -> becomes kd v (get_param e' k);
  ea_either : forall k kd v, In (k, kd) (documented (format_of e)) -> mget k l = Some v -> get_param e' k = get_param e k \/ becomes kd v (get_param e' k) }.
Lemma each_spec l : NoDup (map fst l) -> forall e e' r, set_each e l = (e', r) -> each e l e' r.
Proof.
  induction l as [|[k v] t IH]; cbn [set_each map fst]; intros ND e e' r.
  - intros [= <- <-]. split; auto; cbn; discriminate.
  - inversion ND as [|? ? NI ND']; subst. destruct (set_param e k v) as [e1 r1] eqn:E. pose proof (set_one _ _ _ _ _ E) as O. destruct O as [Of Ofail Ofits Ostep Oo Os Oy].
    pose proof (none_notin _ _ NI) as NK.
    assert (Stop : r1 <> Ok tt -> each e ((k, v) :: t) e1 r1).
    { intros N. specialize (Ofail N). subst e1. split; auto. intros k0 kd v0 _ _ Q. destruct (N Q). }
    destruct r1 as [[]| | | |]; try (intros [= <- <-]; apply Stop; discriminate).
    intros H. specialize (IH ND' _ _ _ H). destruct IH as [If Ifits Istep Ia Ip Ie]. split.
    + congruence.
    + auto.
    + auto.
    + cbn [mget]. intros k0. destruct (beqb k0 k) eqn:B; [discriminate|]. intros G. apply beqb_neq in B. destruct (Ia _ G) as [-> ->]. auto.
    + cbn [mget]. intros k0 kd v0 I G R. destruct (beqb k0 k) eqn:B.
      * apply beqb_eq in B. subst k0. injection G as <-. rewrite (proj1 (Ia _ NK)). apply Os; auto.
      * eapply Ip; eauto. rewrite Of. exact I.
    + cbn [mget]. intros k0 kd v0 I G. destruct (beqb k0 k) eqn:B.
      * apply beqb_eq in B. subst k0. injection G as <-. right. rewrite (proj1 (Ia _ NK)). apply Os; auto.
      * apply beqb_neq in B. rewrite <- (Oo _ B). eapply Ie; eauto. rewrite Of. exact I.
Qed.
Lemma keys_nodup : NoDup param_keys.
Proof. unfold param_keys. repeat constructor; cbn; intros H; repeat (destruct H as [H|H]; [discriminate H|]); destruct H. Qed.
Lemma sorted_nodup {A} (m : list (bytes * A)) : msorted m -> NoDup (map fst m).
Proof.
  induction m as [|[k v] t IH]; cbn; [constructor|]. intros [L S]. constructor; [|apply IH, S].
  intros H. specialize (L k H). rewrite bcmp_refl in L. discriminate.
Qed.
Lemma documented_keys k kd : In (k, kd) (documented FYaml) -> In k param_keys.
Proof. cbn [documented In param_keys]. intros H. repeat (destruct H as [H|H]; [apply (f_equal fst) in H; cbn [fst] in H; tauto|]). destruct H. Qed.

(** ** The property *)
(** SetParam of a documented parameter with a value of its kind succeeds; GetParam then gives that value, and every other parameter
    (and every style in use) is as it was. *)
Theorem C54_read_back_partial : forall e k kd v, In (k, kd) (documented (format_of e)) -> holds kd v ->
  exists e', set_param e k v = (e', Ok tt) /\ get_param e' k = v /\ forall k', k' <> k -> get_param e' k' = get_param e k' /\ in_use e' k' = in_use e k'.
Proof.
  intros e k kd v I H. apply holds_becomes in H. pose proof (set_ok _ _ _ _ _ I H) as S. destruct (set_param e k v) as [e' r] eqn:E. cbn in S. subst r.
  destruct (set_one _ _ _ _ _ E) as [_ _ _ _ Oo Os Oy]. exists e'. split; [reflexivity|]. split; [|auto]. eapply becomes_fun; [apply Os; [exact I|reflexivity]|exact H].
Qed.
Print Assumptions C54_read_back_partial.

(** What GetParam gives for a documented parameter is what the emitter writes with, and SetParam of one name leaves what it writes with
    under every other name, "strict" of JSON included. *)
Theorem C54_uses_partial : forall e, (forall k kd, In (k, kd) (documented (format_of e)) -> get_param e k = uses e k) /\
  forall k v e' r k', set_param e k v = (e', r) -> k' <> k -> uses e' k' = uses e k'.
Proof.
  assert (A : forall e k kd, In (k, kd) (documented (format_of e)) -> get_param e k = uses e k).
  { intros e k kd H. destruct e; cbn [documented format_of In] in H; repeat (destruct H as [H|H]; [injection H as <- <-; reflexivity|]); destruct H. }
  intros e. split; [exact (A e)|]. intros k v e' r k' E N. destruct (set_one _ _ _ _ _ E) as [Of Ofail _ _ Oo _ _]. specialize (Oo k' N).
  destruct e as [p|y ti tw|x h|n|], e' as [p'|y' ti' tw'|x' h'|n'|]; try discriminate Of; try exact Oo.
  - cbn [uses]. cbn [get_param] in Oo. destruct (beqb k' (s2b "pretty")); [exact Oo|]. destruct (beqb k' (s2b "strict")) eqn:S; [|exact Oo].
    cbn [set_param] in E. destruct (beqb k (s2b "pretty")); [|destruct (beqb k (s2b "indent")); [|destruct (beqb k (s2b "precision"))]].
    4: injection E as <- _; reflexivity.
    all: revert E; unfold assign; conv_cases; intros [= <- _]; reflexivity.
  - assert (B : forall k0, ((exists kd, In (k0, kd) (documented FYaml)) \/ forall y ti tw, uses (EYaml y ti tw) k0 = VNull)).
    { intros k0. cbn [uses documented In]. repeat match goal with |- context [beqb k0 ?s] => destruct (beqb k0 s) eqn:?; [known; subst k0; left; eexists; eauto 8; fail|] end. right. reflexivity. }
    destruct (B k') as [[kd I]|Z]; [|rewrite !Z; reflexivity]. rewrite <- (A (EYaml y' ti' tw') _ _ I), <- (A (EYaml y ti tw) _ _ I). exact Oo.
Qed.
Print Assumptions C54_uses_partial.

(** Whatever the value: SetParam succeeds exactly if the value can be converted, GetParam then gives the converted value; otherwise
    nothing is changed. What libxml was told stays in step with the parameters. *)
Theorem C54_any_value_partial : forall e k kd v e' r, In (k, kd) (documented (format_of e)) -> set_param e k v = (e', r) ->
  (r = Ok tt <-> exists w, becomes kd v w) /\ (r = Ok tt -> becomes kd v (get_param e' k)) /\ (r <> Ok tt -> e' = e) /\
  (forall k', k' <> k -> get_param e' k' = get_param e k' /\ in_use e' k' = in_use e k') /\ (in_step e -> in_step e') /\ (fits e -> fits e').
Proof.
  intros e k kd v e' r I E. destruct (set_one _ _ _ _ _ E) as [_ Of Oi Ost Oo Os Oy]. repeat split; auto.
  - intros R. eexists. apply Os; eauto.
  - intros [w W]. pose proof (set_ok _ _ _ _ _ I W) as S. rewrite E in S. exact S.
Qed.
Print Assumptions C54_any_value_partial.

(** A name that is no parameter is ignored and reads as null. *)
Theorem C54_unknown_partial : forall e k v, (forall kd, ~ In (k, kd) (documented (format_of e))) -> (forall l, ~ In (k, l) styles) ->
  get_param e k = VNull /\ snd (set_param e k v) = Ok tt /\ (in_step e -> fst (set_param e k v) = e).
Proof.
  intros e k v N S.
  assert (B : forall n kd, In (n, kd) (documented (format_of e)) -> beqb k n = false) by (intros n kd I; apply beqb_neq; intros ->; exact (N kd I)).
  destruct e as [p|y ti tw|x h|n|]; cbn [set_param get_param].
  - rewrite (B (s2b "pretty") KBool), (B (s2b "indent") KUns), (B (s2b "precision") KUns) by (cbn [documented format_of In]; tauto). auto.
  - assert (X : index_of 0 k param_keys = None).
    { apply index_none. intros I. cbn [param_keys In] in I. destruct I as [<-|[<-|[<-|[<-|[<-|[<-|[<-|[<-|[]]]]]]]]].
      1-3: eapply S; cbn [styles In]; eauto; fail.
      all: eapply N; cbn [documented format_of In]; eauto 8; fail. }
    rewrite X. auto.
  - rewrite (B (s2b "pretty") KBool), (B (s2b "indent") KUns), (B (s2b "precision") KUns) by (cbn [documented format_of In]; tauto).
    split; [reflexivity|]. split; [reflexivity|]. cbn. intros (_ & _ & ->). reflexivity.
  - rewrite (B (s2b "precision") KUns) by (cbn [documented format_of In]; tauto). auto.
  - auto.
Qed.
Print Assumptions C54_unknown_partial.

(** SetParams: a documented parameter that the map has is set from it, one that it has not keeps its value; if it throws, every
    parameter has its old value or the value of the map. What is no map changes nothing. *)
Theorem C54_set_params_partial : forall e m e' r, msorted m -> set_params e (VMap m) = (e', r) ->
  (forall k kd, In (k, kd) (documented (format_of e)) -> match mget k m with
     | None => get_param e' k = get_param e k
     | Some v => (r = Ok tt -> becomes kd v (get_param e' k)) /\ (get_param e' k = get_param e k \/ becomes kd v (get_param e' k))
     end) /\ (in_step e -> in_step e') /\ (fits e -> fits e') /\ format_of e' = format_of e.
Proof.
  intros e m e' r S E. cbn [set_params] in E.
  assert (X : exists l, each e l e' r /\ forall k kd, In (k, kd) (documented (format_of e)) -> mget k l = mget k m).
  { destruct e as [p|y ti tw|x h|n|]; try (exists m; split; [eapply each_spec; [apply sorted_nodup, S|exact E]|reflexivity]).
    rewrite named_each in E. exists (picked param_keys m). split; [eapply each_spec; [apply picked_nodup, keys_nodup|exact E]|].
    intros k kd I. apply picked_get. eapply documented_keys. exact I. }
  destruct X as (l & [Ef Ei Es Ea Ep Ee] & G). repeat split; auto.
  intros k kd I. rewrite <- (G _ _ I). destruct (mget k l) as [v|] eqn:L; [|apply Ea, L]. split; eauto.
Qed.
Print Assumptions C54_set_params_partial.
Theorem C54_set_params_other_partial : forall e params, (forall m, params <> VMap m) -> set_params e params = (e, Ok tt).
Proof. intros e params N. destruct params; try reflexivity. destruct (N m eq_refl). Qed.
Print Assumptions C54_set_params_other_partial.

(** GetParams is the map of what GetParam gives: the keys are exactly those that do not read as null. *)
Theorem C54_get_params_partial : forall e, format_of e <> FMsgPack -> exists m, get_params e = VMap m /\ msorted m /\
  forall k w, mget k m = Some w <-> w = get_param e k /\ w <> VNull.
Proof.
  assert (X : forall w (o : option value) g, o = (match g with VNull => None | _ => Some g end) -> (o = Some w <-> w = g /\ w <> VNull)).
  { intros w o g ->. destruct g; split; try discriminate; try (intros [= <-]; split; [reflexivity|discriminate]); intros [-> N]; congruence. }
  intros e N. destruct e as [p|y ti tw|x h|n|]; cbn [get_params]; try (destruct N; reflexivity); eexists; (split; [reflexivity|]); split.
  1,3,5,7: cbn [yaml_collect param_keys]; repeat apply msorted_mset; cbn; auto; repeat split; intros ? [].
  all: intros k w; apply X.
  - repeat rewrite mget_mset by (repeat apply msorted_mset; exact I). cbn [get_param mget].
    destruct (beqb k (s2b "pretty")) eqn:E1; [apply beqb_eq in E1; subst k; reflexivity|].
    destruct (beqb k (s2b "indent")) eqn:E2; [apply beqb_eq in E2; subst k; reflexivity|]. destruct (beqb k (s2b "precision")); reflexivity.
  - unfold param_keys at 1. cbn [yaml_collect]. repeat rewrite mget_mset by (repeat apply msorted_mset; exact I). cbn [get_param mget].
    destruct (index_of 0 k param_keys) as [i|] eqn:Ei.
    + assert (Ek := index_name _ _ _ _ Ei). eight Ei; injection Ek as <-; reflexivity.
    + apply index_none in Ei. cbn [param_keys In] in Ei.
      repeat match goal with |- context [beqb k ?s] => rewrite (proj2 (beqb_neq k s)) by (intros ->; apply Ei; tauto) end. reflexivity.
  - repeat rewrite mget_mset by (repeat apply msorted_mset; exact I). cbn [get_param mget].
    destruct (beqb k (s2b "pretty")) eqn:E1; [apply beqb_eq in E1; subst k; reflexivity|].
    destruct (beqb k (s2b "indent")) eqn:E2; [apply beqb_eq in E2; subst k; reflexivity|]. destruct (beqb k (s2b "precision")); reflexivity.
  - cbn [get_param mget]. destruct (beqb k (s2b "precision")); reflexivity.
Qed.
Print Assumptions C54_get_params_partial.

(** Giving an emitter its own parameters changes nothing, but for YAML. *)
Theorem C54_copy_partial : forall e, format_of e <> FYaml -> fits e -> in_step e -> set_params e (get_params e) = (e, Ok tt).
Proof.
  assert (W : forall n, n < 4294967296 -> wrap32 n = n) by (intros n L; apply N.mod_small; exact L).
  intros e N F S. destruct e as [p|y ti tw|x h|n|]; try (destruct N; reflexivity).
  - destruct p as [a b c d]. destruct F as [F1 F2]. cbn in F1, F2. cbn. rewrite (W c F1), (W d F2). reflexivity.
  - destruct x as [a c d]. destruct F as [F1 F2]. cbn in F1, F2. destruct S as (_ & _ & ->). cbn. rewrite (W c F1), (W d F2). reflexivity.
  - cbn in F. cbn. rewrite (W n F). reflexivity.
  - reflexivity.
Qed.
Print Assumptions C54_copy_partial.

(** A documented style is taken up, and no other parameter with it; any other string is ignored. *)
Theorem C54_style_partial : forall e k names s, format_of e = FYaml -> In (k, names) styles ->
  exists e', set_param e k (VStr s) = (e', Ok tt) /\ (In s names -> in_use e' k = Some s) /\ (~ In s names -> e' = e) /\
    forall k', k' <> k -> get_param e' k' = get_param e k' /\ in_use e' k' = in_use e k'.
Proof.
  intros e k names s F I. destruct (set_param e k (VStr s)) as [e' r] eqn:E. exists e'.
  destruct (set_one _ _ _ _ _ E) as [_ _ _ _ Oo _ Oy].
  enough (X : r = Ok tt /\ (In s names -> in_use e' k = Some s) /\ (~ In s names -> e' = e)) by (destruct X as (-> & X1 & X2); split; [reflexivity|]; split; [exact X1|]; split; [exact X2|]; intros k' N; split; auto).
  clear Oo Oy. destruct e as [p|y ti tw|x h|n|]; try discriminate F.
  cbn [styles In] in I. destruct I as [I|[I|[I|[]]]]; apply pair_equal_spec in I; destruct I as [<- <-].
  all: unfold set_param in E.
  1: change (index_of 0 (s2b "scalar_style") param_keys) with (Some 0) in E.
  2: change (index_of 0 (s2b "map_style") param_keys) with (Some 1) in E.
  3: change (index_of 0 (s2b "list_style") param_keys) with (Some 2) in E.
  all: unfold yaml_set, assign, as_string in E; apply pair_equal_spec in E; destruct E as [<- <-]; split; [reflexivity|].
  1: change [s2b "any"; s2b "plain"; s2b "single quoted"; s2b "double quoted"; s2b "literal"; s2b "folded"] with scalar_style_str.
  2-3: change [s2b "any"; s2b "block"; s2b "flow"] with style_str.
  all: match goal with |- context [index_of 0 ?s ?l] => destruct (index_of 0 s l) as [j|] eqn:Ej end.
  all: split; intros H; try reflexivity; try (apply index_none in Ej; contradiction).
  all: try (exfalso; apply H; apply index_name in Ej; eapply nth_error_In; exact Ej).
  all: apply index_name in Ej; rewrite N.sub_0_r in Ej; exact Ej.
Qed.
Print Assumptions C54_style_partial.

(** What a parameter is if nothing was said. *)
Definition default (f : format) (k : bytes) : value :=
  if beqb k (s2b "precision") then VUns 17
  else if beqb k (s2b "indent") then (match f with FYaml => VInt (-1) | _ => VUns 4 end)
  else if beqb k (s2b "width") then VInt (-1)
  else VBool false.
Lemma into_uns m k d n : get_into to_unsigned m k d = Ok n -> d < 4294967296 ->
  n < 4294967296 /\ match mget k m with Some v => becomes KUns v (VUns n) | None => n = d end.
Proof. unfold get_into. destruct (mget k m) as [v|]; [intros H _; apply uns_becomes in H; tauto|]. intros [= <-] L. auto. Qed.
Lemma into_bool m k d b : get_into as_bool m k d = Ok b -> match mget k m with Some v => becomes KBool v (VBool b) | None => b = d end.
Proof. unfold get_into. destruct (mget k m) as [v|]; [apply bool_becomes|]. intros [= <-]. auto. Qed.

(** The constructors: a documented parameter that is given is what GetParam reads, one that is not has its default; "strict" of JSON
    likewise; libyaml is told the positive indent and width, libxml is in step. Not for the bundle header. *)
Theorem C54_make_partial : forall f params e, f <> FBundle -> vsorted_map params -> make f params = Ok e ->
  format_of e = f /\ fits e /\ in_step e /\
  (forall k kd, In (k, kd) (documented f) -> match given params k with Some v => becomes kd v (get_param e k) | None => get_param e k = default f k end) /\
  match e with
  | EJson p => match given params (s2b "strict") with Some v => as_bool v = Ok (j_strict p) | None => j_strict p = false end
  | EYaml y ti tw => (forall z, ti = Some z <-> get_param e (s2b "indent") = VInt z /\ (0 < z)%Z) /\ (forall z, tw = Some z <-> get_param e (s2b "width") = VInt z /\ (0 < z)%Z)
  | _ => True
  end.
Proof.
  intros f params e NB S. destruct f; cbn [make]; try (destruct NB; reflexivity).
  - destruct params as [| | | | | | |m|]; try (intros [= <-]; split; [reflexivity|]; split; [split; cbn; lia|]; split; [exact I|]; split; [|reflexivity];
      intros k kd H; cbn [documented In] in H; repeat (destruct H as [H|H]; [injection H as <- <-; reflexivity|]); destruct H).
    destruct (get_into as_bool m (s2b "pretty") (j_pretty jdefault)) as [a| | | |] eqn:A; cbn [rbind]; try discriminate.
    destruct (get_into as_bool m (s2b "strict") (j_strict jdefault)) as [b| | | |] eqn:B; cbn [rbind]; try discriminate.
    destruct (get_into to_unsigned m (s2b "indent") (j_indent jdefault)) as [c| | | |] eqn:C; cbn [rbind]; try discriminate.
    destruct (get_into to_unsigned m (s2b "precision") (j_prec jdefault)) as [d| | | |] eqn:D; cbn [rbind]; try discriminate.
    intros [= <-]. apply into_bool in A, B. apply into_uns in C; [|cbn; lia]. apply into_uns in D; [|cbn; lia]. destruct C as [C1 C2], D as [D1 D2].
    split; [reflexivity|]. split; [split; assumption|]. split; [exact I|]. split.
    + intros k kd H. cbn [documented In] in H. unfold given.
      destruct H as [H|[H|[H|[]]]]; apply pair_equal_spec in H; destruct H as [<- <-]; match goal with |- context [mget ?k m] => destruct (mget k m) end; try assumption; subst; reflexivity.
    + unfold given. destruct (mget (s2b "strict") m); [|subst; reflexivity]. destruct B as (b' & B & Q). injection Q as <-. exact B.
  - intros H. destruct (set_params (EYaml ydefault None None) params) as [e1 r1] eqn:E.
    assert (X : format_of e1 = FYaml /\ fits e1 /\ (r1 = Ok tt -> forall k kd, In (k, kd) (documented FYaml) -> match given params k with Some v => becomes kd v (get_param e1 k) | None => get_param e1 k = default FYaml k end)).
    { assert (F0 : fits (EYaml ydefault None None)) by (cbn; lia).
      assert (D0 : forall k kd, In (k, kd) (documented FYaml) -> get_param (EYaml ydefault None None) k = default FYaml k)
        by (intros k kd I; cbn [documented In] in I; repeat (destruct I as [I|I]; [injection I as <- <-; reflexivity|]); destruct I).
      destruct params as [| | | | | | |m|]; try (injection E as <- <-; auto; fail).
      destruct (C54_set_params_partial _ _ _ _ S E) as (P & _ & Q & R). split; [exact R|]. split; [auto|]. intros RO k kd I. specialize (P k kd I). cbn [given]. destruct (mget k m).
      - apply P, RO.
      - rewrite P. exact (D0 k kd I). }
    destruct X as (F & Fi & X). destruct e1 as [|y ti tw| | |]; try discriminate F. destruct r1 as [[]| | | |]; try discriminate H. injection H as <-.
    split; [reflexivity|]. split; [exact Fi|]. split; [exact Logic.I|]. split; [exact (X eq_refl)|].
    split; intros z; [destruct (Z.ltb_spec 0 (y_indent y))|destruct (Z.ltb_spec 0 (y_width y))]; (split; [intros Q; (discriminate Q || (injection Q as <-; split; [reflexivity|assumption]))|intros [Q ?]; injection Q as Q; subst z; try reflexivity; lia]).
  - destruct params as [| | | | | | |m|]; try (intros [= <-]; split; [reflexivity|]; split; [split; cbn; lia|]; split; [apply xml_in_step|]; split; [|exact I];
      intros k kd H; cbn [documented In] in H; repeat (destruct H as [H|H]; [injection H as <- <-; reflexivity|]); destruct H).
    destruct (get_into as_bool m (s2b "pretty") (x_pretty xdefault)) as [a| | | |] eqn:A; cbn [rbind]; try discriminate.
    destruct (get_into to_unsigned m (s2b "indent") (x_indent xdefault)) as [c| | | |] eqn:C; cbn [rbind]; try discriminate.
    destruct (get_into to_unsigned m (s2b "precision") (x_prec xdefault)) as [d| | | |] eqn:D; cbn [rbind]; try discriminate.
    intros [= <-]. apply into_bool in A. apply into_uns in C; [|cbn; lia]. apply into_uns in D; [|cbn; lia]. destruct C as [C1 C2], D as [D1 D2].
    split; [reflexivity|]. split; [split; assumption|]. split; [apply xml_in_step|]. split; [|exact I].
    intros k kd H. cbn [documented In] in H. unfold given.
    destruct H as [H|[H|[H|[]]]]; apply pair_equal_spec in H; destruct H as [<- <-]; match goal with |- context [mget ?k m] => destruct (mget k m) end; try assumption; subst; reflexivity.
  - intros [= <-]. cbn. repeat split. intros k kd [].
Qed.
Print Assumptions C54_make_partial.

(** *** Cases *)
(** A YAML emitter made from two parameters, the indent given as text; then what the theorems say of it. *)
Example C54_case :
  exists e, make FYaml (VMap [(s2b "indent", VStr (s2b "2")); (s2b "map_style", VStr (s2b "flow"))]) = Ok e /\
    get_param e (s2b "indent") = VInt 2 /\ in_use e (s2b "map_style") = Some (s2b "flow") /\
    In (s2b "precision", KUns) (documented (format_of e)) /\ holds KUns (VUns 9) /\
    get_param (fst (set_param e (s2b "precision") (VUns 9))) (s2b "precision") = VUns 9 /\
    snd (set_param e (s2b "precision") (VList [])) = Throw UnableToConvertError /\
    becomes KUns (VInt (-1)) (VUns 4294967295) /\ becomes KInt (VUns 4294967295) (VInt (-1)).
Proof.
  eexists. split; [vm_compute; reflexivity|]. do 2 (split; [vm_compute; reflexivity|]). split; [cbn; tauto|]. split; [exists 9; split; [reflexivity|lia]|].
  do 2 (split; [vm_compute; reflexivity|]). split; [exists 18446744073709551615; split; vm_compute; reflexivity|].
  exists 4294967295%Z, (-1)%Z. split; [reflexivity|]. split; [reflexivity|]. vm_compute. split; congruence.
Qed.
(** The hypotheses of the theorems on SetParams and on copying. *)
Example C54_case_params :
  exists e e', make FXml (VMap [(s2b "pretty", VBool true)]) = Ok e /\ fits e /\ in_step e /\
    msorted [(s2b "indent", VUns 2); (s2b "precision", VUns 5)] /\
    set_params e (VMap [(s2b "indent", VUns 2); (s2b "precision", VUns 5)]) = (e', Ok tt) /\ e' = EXml (XConf true 2 5) 2 /\
    get_params e' = VMap [(s2b "indent", VUns 2); (s2b "precision", VUns 5); (s2b "pretty", VBool true)].
Proof.
  do 2 eexists. split; [vm_compute; reflexivity|]. split; [cbn; lia|]. split; [exact (xml_in_step (XConf true 4 17))|].
  split; [split; [intros ? [<- | []]; reflexivity|split; [intros ? []|exact I]]|]. repeat split; vm_compute; reflexivity.
Qed.

(** A style that is documented and one that is not; a name that is no parameter of XML, though it is one of YAML. *)
Example C54_case_style :
  exists e names, make FYaml VNull = Ok e /\ format_of e = FYaml /\ In (s2b "scalar_style", names) styles /\ In (s2b "literal") names /\ ~ In (s2b "Literal") names /\
    in_use (fst (set_param e (s2b "scalar_style") (VStr (s2b "literal")))) (s2b "scalar_style") = Some (s2b "literal") /\
    fst (set_param e (s2b "scalar_style") (VStr (s2b "Literal"))) = e /\
    (forall kd, ~ In (s2b "width", kd) (documented FXml)) /\ (forall l, ~ In (s2b "width", l) styles).
Proof.
  do 2 eexists. split; [vm_compute; reflexivity|]. split; [reflexivity|]. split; [left; reflexivity|]. split; [cbn; tauto|].
  split; [cbn; intros H; repeat (destruct H as [H|H]; [discriminate H|]); destruct H|]. do 2 (split; [vm_compute; reflexivity|]).
  split; intros ? H; repeat (destruct H as [H|H]; [discriminate H|]); destruct H.
Qed.

(** ** What is not so *)
(** The styles of YAML are taken up but not read back: GetParam says "any", "block" and "flow" whatever was set
    (src/YAMLEmitter.cc:155-160 index the names with the number of the parameter). *)
Theorem C54_style_refuted : exists e e' s, make FYaml VNull = Ok e /\ set_param e (s2b "map_style") (VStr s) = (e', Ok tt) /\
  in_use e' (s2b "map_style") = Some s /\ get_param e' (s2b "map_style") <> VStr s.
Proof. do 2 eexists. exists (s2b "flow"). split; [vm_compute; reflexivity|]. split; [vm_compute; reflexivity|]. split; [vm_compute; reflexivity|]. vm_compute. discriminate. Qed.
Print Assumptions C54_style_refuted.
Corollary C54_style_always_partial : forall y ti tw, get_param (EYaml y ti tw) (s2b "scalar_style") = VStr (s2b "any") /\
  get_param (EYaml y ti tw) (s2b "map_style") = VStr (s2b "block") /\ get_param (EYaml y ti tw) (s2b "list_style") = VStr (s2b "flow").
Proof. intros. repeat split; reflexivity. Qed.
Print Assumptions C54_style_always_partial.
(** So an emitter given its own parameters writes otherwise: a fresh YAML emitter goes over to block maps and flow lists. *)
Theorem C54_copy_refuted : exists e e', make FYaml VNull = Ok e /\ set_params e (get_params e) = (e', Ok tt) /\
  in_use e (s2b "map_style") = Some (s2b "any") /\ in_use e' (s2b "map_style") = Some (s2b "block") /\
  in_use e (s2b "list_style") = Some (s2b "any") /\ in_use e' (s2b "list_style") = Some (s2b "flow").
Proof. do 2 eexists. split; [vm_compute; reflexivity|]. split; [vm_compute; reflexivity|]. repeat split; vm_compute; reflexivity. Qed.
Print Assumptions C54_copy_refuted.
(** "strict" of JSON is documented with the others but only the constructor knows it: SetParam ignores it and GetParam gives null. *)
Theorem C54_strict_refuted : exists e, make FJson (VMap [(s2b "strict", VBool true)]) = Ok e /\ get_param e (s2b "strict") = VNull /\
  set_param e (s2b "strict") (VBool false) = (e, Ok tt) /\ e <> EJson jdefault.
Proof. eexists. split; [vm_compute; reflexivity|]. repeat split; try (vm_compute; reflexivity). vm_compute. discriminate. Qed.
Print Assumptions C54_strict_refuted.
(** A number that the variable does not hold is cut without an error: a precision of 2^32 is a precision of 0. *)
Theorem C54_cut_refuted : exists e e', make FJson VNull = Ok e /\ set_param e (s2b "precision") (VUns 4294967296) = (e', Ok tt) /\
  get_param e' (s2b "precision") = VUns 0.
Proof. do 2 eexists. repeat split; vm_compute; reflexivity. Qed.
Print Assumptions C54_cut_refuted.
(** The bundle header emitter does not look at the parameters it is made with, though it has one. *)
Theorem C54_bundle_refuted : exists e, make FBundle (VMap [(s2b "precision", VUns 3)]) = Ok e /\ get_param e (s2b "precision") = VUns 17 /\
  get_param (fst (set_param e (s2b "precision") (VUns 3))) (s2b "precision") = VUns 3.
Proof. eexists. repeat split; vm_compute; reflexivity. Qed.
Print Assumptions C54_bundle_refuted.
(** The indent of a YAML emitter, once made, can be set and read but reaches libyaml no more. *)
Theorem C54_told_refuted : exists e e' y, make FYaml VNull = Ok e /\ set_param e (s2b "indent") (VInt 8) = (e', Ok tt) /\
  get_param e' (s2b "indent") = VInt 8 /\ e' = EYaml y None None.
Proof. do 3 eexists. split; [vm_compute; reflexivity|]. split; [vm_compute; reflexivity|]. split; vm_compute; reflexivity. Qed.
Print Assumptions C54_told_refuted.
(** SetParams that throws has set some of the parameters. *)
Theorem C54_half_refuted : exists e e', make FJson VNull = Ok e /\
  set_params e (VMap [(s2b "indent", VUns 7); (s2b "precision", VList [])]) = (e', Throw UnableToConvertError) /\ get_param e' (s2b "indent") = VUns 7.
Proof. do 2 eexists. repeat split; vm_compute; reflexivity. Qed.
Print Assumptions C54_half_refuted.
