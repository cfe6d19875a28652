(** C48, C49, and more of C26 and C27: the schema loader and SchemaValidate as it is called. *)
From Verif Require Import Base CNum Float Value Blob Path Numeric Emit Uri P_Uri Heap HeapProofs HeapSpec SharingProofs ValueOps HeapTree HeapErase HeapTreeFacts
  Pointer PointerWalk PointerSem PointerText P_Pointer ExtValue Schema DefaultsProofs P_Schema SchemaLoad SchemaLoadFrame SchemaNorm SchemaLoadTree SchemaLoadSem SchemaNormFacts SchemaCall.
Open Scope N_scope.

(** ** C48: normalising a schema *)
(** NormSchema of a schema that is a tree ends, and leaves a tree in which every "id" and "$ref" text
    that is part of the schema has been resolved against the base URI at its place, every other
    scalar is what it was, and every list and object has the elements it had; nothing else in the
    program changes.  [turns] says the latter: only containers of the schema have been written to. *)
Theorem C48_normalises : forall (fuel : nat) (st : hstate) (l : loc) (v : value) (c : cell) (F : list nat) (uri : bytes),
  tree st l v c F -> (vdepth v <= fuel)%nat ->
  exists st' v' F', norm_schema fuel l uri st = (Ok tt, st') /\ turns st l F [] st' v' c F' /\
  (forall p t, resolved uri v p t -> vat v' p = Some (VStr t)) /\
  (forall p x, vat v p = Some x -> scalar x -> (forall t, ~ resolved uri v p t) -> vat v' p = Some x) /\
  (forall p, match vat v p, vat v' p with Some x, Some x' => same_outline x x' | None, None => True | _, _ => False end).
Proof.
  intros fuel st l v c F uri T D. destruct (norm_tree fuel st l v c F uri T D) as (st' & F' & E & Tu).
  exists st', (vnorm uri v), F'. split; [exact E|]. split; [exact Tu|]. split; [apply norm_resolved|]. split; [intros p x; apply norm_kept|]. intros p; apply norm_outline.
Qed.
Print Assumptions C48_normalises.

(** Every sorted value can be built. *)
Lemma built v : vsortedb v = true -> exists st c F, tree st (LVar 0) v c F.
Proof.
  intros K. destruct (plant_ok v (vsortedb_ok v K) (HState [CNull] [])) as (c & st & F & E & X & O & N & _).
  exists (HState [c] (h_heap st)), c, F. split; auto; cbn; auto.
Qed.
(** A schema with an id inside another, and references. *)
Definition book : value := jtext "{""id"":""http://h/a/s"",""items"":{""id"":""sub/"",""not"":{""$ref"":""t#x""}},""enum"":[{""$ref"":""t""}],""$x"":{""$ref"":""#/items"",""id"":5}}".
Example C48_book : (exists st c F, tree st (LVar 0) book c F) /\ (vdepth book <= 10)%nat /\
  resolved [] book [PKey (s2b "items"); PKey (s2b "not"); PKey (s2b "$ref")] (s2b "http://h/a/sub/t#x") /\
  resolved [] book [PKey (s2b "$x"); PKey (s2b "$ref")] (s2b "http://h/a/s#/items") /\
  vnorm [] book = jtext "{""id"":""http://h/a/s"",""items"":{""id"":""http://h/a/sub/"",""not"":{""$ref"":""http://h/a/sub/t#x""}},""enum"":[{""$ref"":""t""}],""$x"":{""$ref"":""http://h/a/s#/items"",""id"":5}}".
Proof.
  split; [apply built; vm_compute; reflexivity|]. split; [vm_compute; lia|].
  remember book as bk eqn:E. vm_compute in E. subst bk. split; [|split; [|vm_compute; reflexivity]].
  - match goal with |- resolved _ (VMap ?m) _ _ => set (bm := m) end.
    change (s2b "http://h/a/sub/t#x") with (resolve_uri (resolve_uri (resolve_uri [] (s2b "http://h/a/s")) (s2b "sub/")) (s2b "t#x")).
    apply (resolved_ref [] (VMap bm) [PKey (s2b "items"); PKey (s2b "not")] (resolve_uri (resolve_uri [] (s2b "http://h/a/s")) (s2b "sub/")) _ [(s2b "$ref", VStr (s2b "t#x"))]).
    + eapply within_key; [apply based_id; reflexivity|discriminate|discriminate|reflexivity|].
      eapply within_key; [apply based_id; reflexivity|discriminate|discriminate|reflexivity|]. apply within_here.
    + apply based_none. discriminate.
    + reflexivity.
  - match goal with |- resolved _ (VMap ?m) _ _ => set (bm := m) end.
    change (s2b "http://h/a/s#/items") with (resolve_uri (resolve_uri [] (s2b "http://h/a/s")) (s2b "#/items")).
    eapply (resolved_ref [] (VMap bm) [PKey (s2b "$x")]).
    + eapply within_key; [apply based_id; reflexivity|discriminate|discriminate|reflexivity|]. apply within_here.
    + apply based_none. discriminate.
    + reflexivity.
Qed.

(** Normalising what has been normalised changes nothing, against whatever base, when the ids and
    references were resolved to absolute URIs: [settled] URIs, such as those that
    C43_resolve_stable_partial is about.  [fuel], [st2] and the rest belong to the second call. *)
Theorem C48_twice_partial : forall (fuel : nat) (st : hstate) (l : loc) (v : value) (c : cell) (F : list nat) (uri : bytes),
  tree st l v c F -> (vdepth v <= fuel)%nat -> (forall p t, vat v p = Some (VStr t) -> (last p (PIdx 0) = PKey (s2b "id") \/ last p (PIdx 0) = PKey (s2b "$ref")) -> settled t) ->
  parse_uri uri <> None -> exists st' F', norm_schema fuel l uri st = (Ok tt, st') /\ turns st l F [] st' v c F'.
Proof.
  intros fuel st l v c F uri T D S P. destruct (norm_tree fuel st l v c F uri T D) as (st' & F' & E & Tu). exists st', F'. split; [exact E|].
  rewrite norm_settled in Tu; auto; [|eapply owns_sorted, (tr_owns _ _ _ _ _ T)].
  assert (W : forall u w q b x, within u w q b x -> vat w q = Some x).
  { induction 1 as [|? ? ? ? ? ? ? ? ? ? ? G _ IH|? ? ? ? ? ? ? G _ IH]; cbn [vat vchild]; auto; rewrite G; exact IH. }
  assert (A : forall q m k t0, vat v q = Some (VMap m) -> mget k m = Some (VStr t0) -> vat v (q ++ [PKey k]) = Some (VStr t0)).
  { intros q m k t0 Hq G. rewrite vat_app, Hq. cbn [vat vchild]. rewrite G. reflexivity. }
  intros p t R. destruct R as [q b m t0 Wq G|q b b' m t0 Wq B G]; exists t0; assert (H := A _ _ _ _ (W _ _ _ _ _ Wq) G); (split; [exact H|]);
    apply (S _ _ H); rewrite last_last; auto.
Qed.
Print Assumptions C48_twice_partial.
Lemma settled_ex : settled (s2b "http://h/s#d").
Proof.
  assert (W : wf_uri (Uri (s2b "http:") (s2b "//h") (s2b "/s") [] (s2b "#d"))).
  { split; cbn [u_protocol u_authority u_pathname u_search u_hash].
    - right. exists (s2b "http"). split; [discriminate|]. split; [|reflexivity]. repeat constructor; cbn; intuition discriminate.
    - right. exists [], (s2b "h"), []. repeat split; auto; repeat constructor; cbn; intuition discriminate.
    - repeat constructor; cbn; intuition discriminate.
    - intros _. right. eexists; reflexivity.
    - discriminate.
    - discriminate.
    - left; reflexivity.
    - right. exists (s2b "d"). split; [repeat constructor; cbn; intuition discriminate|reflexivity].
    - repeat constructor. }
  intros b P. assert (H := C43_resolve_stable_partial _ _ b W W ltac:(discriminate) ltac:(discriminate) ltac:(discriminate) P).
  replace (resolve_uri (text _) (text _)) with (s2b "http://h/s#d") in H by (vm_compute; reflexivity). exact H.
Qed.
Definition absolute_book : value := VMap [(s2b "$ref", VStr (s2b "http://h/s#d")); (s2b "title", VStr (s2b "t"))].
Example C48_twice_ok : (exists st c F, tree st (LVar 0) absolute_book c F) /\ parse_uri (s2b "x/y") <> None /\
  forall p t, vat absolute_book p = Some (VStr t) -> (last p (PIdx 0) = PKey (s2b "id") \/ last p (PIdx 0) = PKey (s2b "$ref")) -> settled t.
Proof.
  split; [apply built; vm_compute; reflexivity|]. split; [discriminate|]. intros p t H L. destruct p as [|e p]; [discriminate|].
  unfold absolute_book in H. destruct e as [k|i]; cbn [vat vchild mget] in H; [|discriminate].
  destruct (beqb k (s2b "$ref")) eqn:B.
  - destruct p as [|[] p]; try discriminate H. injection H as <-. apply settled_ex.
  - destruct (beqb k (s2b "title")) eqn:B2; [|discriminate]. apply beqb_eq in B2. subst k. destruct p as [|[] p]; try discriminate H. destruct L as [L|L]; discriminate L.
Qed.

(** Relative ids: a second call resolves again what the first one resolved. *)
Theorem C48_twice_refuted : exists v uri, vnorm uri v <> vnorm uri (vnorm uri v) /\
  v = jtext "{""id"":""d/s"",""$ref"":""t""}" /\ vnorm uri v = jtext "{""id"":""d/s"",""$ref"":""d/t""}" /\ vnorm uri (vnorm uri v) = jtext "{""id"":""d/s"",""$ref"":""d/d/t""}" /\
  exists st c F, tree st (LVar 0) v c F.
Proof.
  exists (jtext "{""id"":""d/s"",""$ref"":""t""}"), []. split; [vm_compute; discriminate|]. split; [reflexivity|]. split; [vm_compute; reflexivity|]. split; [vm_compute; reflexivity|].
  apply built. vm_compute. reflexivity.
Qed.
Print Assumptions C48_twice_refuted.
(** The data in a schema is taken for a schema, except in "enum": a default value changes; and what is called
    "enum" is taken for data: a property of that name is left as it is. *)
Theorem C48_data_refuted : exists v w uri,
  v = jtext "{""default"":{""id"":""me""}}" /\ vnorm uri v = jtext "{""default"":{""id"":""d/me""}}" /\
  w = jtext "{""properties"":{""enum"":{""$ref"":""t""},""list"":{""$ref"":""t""}}}" /\
  vnorm uri w = jtext "{""properties"":{""enum"":{""$ref"":""t""},""list"":{""$ref"":""d/t""}}}" /\
  (exists st c F, tree st (LVar 0) v c F) /\ (exists st c F, tree st (LVar 0) w c F).
Proof.
  eexists _, _, (s2b "d/s"). split; [reflexivity|]. split; [vm_compute; reflexivity|]. split; [reflexivity|]. split; [vm_compute; reflexivity|].
  split; apply built; vm_compute; reflexivity.
Qed.
Print Assumptions C48_data_refuted.
(** A schema that contains itself: NormSchema does not end, however much stack there is. *)
Definition cyclic_st : hstate := HState [CMap 0] [StMap [(s2b "not", CMap 0)]].
Theorem C48_cycle_refuted : forall fuel uri, norm_schema fuel (LVar 0) uri cyclic_st = (Fuel, cyclic_st).
Proof.
  assert (H : forall fuel l uri, peek cyclic_st l = Some (CMap 0) -> norm_schema fuel l uri cyclic_st = (Fuel, cyclic_st)).
  { induction fuel as [|f IH]; intros l uri P; [reflexivity|]. cbn [norm_schema]. rewrite (bind_load _ _ _ _ P).
    change ((let* _ := norm_schema f (LKey 0 (s2b "not")) uri in ret tt) cyclic_st = (Fuel, cyclic_st)). unfold bind. rewrite (IH (LKey 0 (s2b "not")) uri eq_refl). reflexivity. }
  intros fuel uri. apply H. reflexivity.
Qed.
Print Assumptions C48_cycle_refuted.

(** ** C49: what the loader finds *)
(** [stocked]: the schemas of the loader are trees and read as the values on the right.  A URI that
    stands for something gives it; one that stands for nothing throws.  Looking up changes nothing. *)
Theorem C49_lookup : forall (st : hstate) (B : list nat) (ld : loader) (known : list vschemas) (u : bytes),
  Forall2 (stocked (h_heap st) B) ld known -> fits known ->
  (forall w, found known u w -> exists c F, get_schema ld u st = (Ok c, st) /\ owns (h_heap st) w c F) /\
  (missing known u -> get_schema ld u st = (Throw RuntimeError, st)).
Proof.
  intros st B ld known u S Ft. split.
  - intros w Fw. destruct (get_found _ _ _ Fw st B ld S Ft) as (c & F & E & O & _). eauto.
  - intros Mi. exact (get_missing _ _ Mi st B ld S Ft).
Qed.
Print Assumptions C49_lookup.

(** AddSchema normalises the schema, which shares no container with those that the loader already has,
    and registers it and the objects in it that have an id that it may give; the loader knows
    everything it knew before.  Nothing but the schema is written to. *)
Theorem C49_added : forall (fuel : nat) (st : hstate) (uri : bytes) (v : value) (c : cell) (F : list nat) (own : schemas) (up : loader) (vown : vschemas) (vup : list vschemas),
  owns (h_heap st) v c F -> NoDup F -> (vdepth v <= fuel)%nat -> Forall2 (stocked (h_heap st) F) (own :: up) (vown :: vup) -> msorted own ->
  let luri := resolve_uri uri [] in
  exists own' st' F' known, add_schema fuel own uri c st = (Ok own', st') /\ owns (h_heap st') (vnorm luri v) c F' /\
  registers vown luri (vnorm luri v) known /\ Forall2 (stocked (h_heap st') []) (own' :: up) (known :: vup) /\
  h_vars st' = h_vars st /\ forall s, (s < hlen st)%nat -> ~ In s F -> nth_error (h_heap st') s = nth_error (h_heap st) s.
Proof.
  intros fuel st uri v c F own up vown vup O N D S Ms luri. inversion S as [|? ? ? ? So Su]; subst.
  destruct (add_tree st v c F fuel own up uri vown vup O N D) as (st' & own' & F' & E & V & _ & O' & _ & _ & H & _ & S'); auto; [rewrite vnorm_depth; exact D|].
  fold luri in O', S'. exists own', st', F', (with_schema vown luri (vnorm luri v)). split; [exact E|]. split; [exact O'|]. split; [apply with_registers; eapply owns_sorted, O'|]. auto.
Qed.
Print Assumptions C49_added.

(** A schema with a definition that has an id of its own, and a fragment that has to be decoded. *)
Definition shelf : value := jtext "{""definitions"":{""a b"":{""type"":""string""},""n"":{""id"":""#n"",""type"":""number""}},""not"":{""$ref"":""#n""}}".
Lemma planted_pair v w : vsortedb v = true -> vsortedb w = true -> exists st c F d G, owns (h_heap st) v c F /\ NoDup F /\ owns (h_heap st) w d G /\ NoDup G /\ forall x, In x F -> ~ In x G.
Proof.
  intros Kv Kw. destruct (plant_ok v (vsortedb_ok v Kv) (HState [] [])) as (c & st & F & E & X & O & N & Fr).
  destruct (plant_ok w (vsortedb_ok w Kw) st) as (d & st' & G & E' & X' & O' & N' & Fr'). exists st', c, F, d, G.
  split; [eapply extends_owns; eauto|]. split; [exact N|]. split; [exact O'|]. split; [exact N'|]. intros x Hx Hy. specialize (Fr x Hx). specialize (Fr' x Hy). lia.
Qed.
Lemma one_stocked h F k v c G : owns h v c G -> NoDup G -> (forall x, In x F -> ~ In x G) -> stocked h F [(k, c)] (fun u => if beqb u k then Some v else None).
Proof. intros O N D u. cbn [mget]. destruct (beqb u k); auto. exists G. split; [exact O|]. split; [exact N|]. intros s Hs Hf. apply (D s Hf Hs). Qed.
Example C49_shelf : exists st c F own vown,
  owns (h_heap st) shelf c F /\ NoDup F /\ (vdepth shelf <= 10)%nat /\ Forall2 (stocked (h_heap st) F) [own] [vown] /\ msorted own /\ vown [] = None /\
  forall known, registers vown [] (vnorm [] shelf) known ->
    (exists x, known (s2b "#n") = Some x) /\
    (known (s2b "#/definitions/a%20b") = None -> found [known] (s2b "#/definitions/a%20b") (jtext "{""type"":""string""}")).
Proof.
  destruct (planted_pair shelf (VMap []) ltac:(vm_compute; reflexivity) ltac:(vm_compute; reflexivity)) as (st & c & F & d & G & O & N & Od & Nd & Dj).
  exists st, c, F, [(s2b "meta", d)], (fun u => if beqb u (s2b "meta") then Some (VMap []) else None).
  split; [exact O|]. split; [exact N|]. split; [vm_compute; lia|]. split; [constructor; [exact (one_stocked _ _ _ _ _ _ Od Nd Dj)|constructor]|]. split; [cbn; tauto|]. split; [reflexivity|].
  intros known R. split.
  - eapply (reg_all _ _ _ _ R (s2b "#n") [PKey (s2b "definitions"); PKey (s2b "n")] (jtext "{""id"":""#n"",""type"":""number""}")).
    + vm_compute (vnorm [] shelf). eapply nested_key; [reflexivity|discriminate|]. eapply nested_key; [reflexivity|discriminate|]. vm_compute (jtext _). apply nested_here.
    + eexists. split; [vm_compute; reflexivity|]. reflexivity.
    + exists (s2b "#n"). split; [reflexivity|]. right. exists (s2b "n"). left. reflexivity.
  - intros K. change (s2b "#/definitions/a%20b") with ([] ++ "#"%char :: s2b "/definitions/a%20b").
    eapply (found_in known [] _ [] (s2b "/definitions/a%20b") [s2b "definitions"; s2b "a b"] [PKey (s2b "definitions"); PKey (s2b "a b")] (vnorm [] shelf)).
    + exact K.
    + apply parted_hash. intros [].
    + apply (reg_names _ _ _ _ R). reflexivity.
    + change (rfc_text [s2b "definitions"; s2b "a b"]) with (s2b "/definitions/a b").
      repeat (apply enc_plain; [discriminate|]). apply (enc_hex " " "2" "0" 2 0); [cbn; tauto|cbn; tauto|reflexivity|]. apply enc_plain; [discriminate|]. constructor.
    + vm_compute (vnorm [] shelf). vm_compute (jtext _). eapply loc_key; [reflexivity|]. eapply loc_key; [reflexivity|]. apply loc_here.
Qed.


(** *** What is false *)
(** A program that builds a schema and data, and calls SchemaValidate.  [mc]: the schema of schemas; [v4]:
    its URI (src/SchemaLoader.cc:47-48, src/json-schema-v4.json:2). *)
Definition both (v w : value) : res (cell * cell) * hstate := (let* c := plant v in let* d := plant w in ret (c, d)) (HState [] []).
Definition v4 : bytes := resolve_uri (s2b "http://json-schema.org/draft-04/schema#") [].
Definition asked (v w : value) (rx : bytes -> option (bytes -> bool)) (mc : cell) : res sctx :=
  match both v w with (Ok (c, d), st) => fst (validate_top rx 101 20 (v4, mc) [] c d st) | _ => UB end.

(** Objects in lists are not registered, though they have an id that the schema may give: a reference to one throws. *)
Theorem C49_lists_refuted : exists v w k, v = jtext "{""allOf"":[{""id"":""#a"",""type"":""string""}],""properties"":{""x"":{""$ref"":""#a""}}}" /\ vnorm [] v = v /\
  vat v [PKey (s2b "allOf"); PIdx 0] = Some w /\ identified w k /\ may_name [] k /\
  forall rx mc, asked v (jtext "{""x"":1}") rx mc = Throw RuntimeError.
Proof.
  eexists _, _, (s2b "#a"). split; [reflexivity|]. split; [vm_compute; reflexivity|]. split; [vm_compute; reflexivity|].
  split; [eexists; split; [reflexivity|vm_compute; reflexivity]|]. split; [exists (s2b "#a"); split; [reflexivity|right; exists (s2b "a"); auto]|]. intros. vm_compute. reflexivity.
Qed.
Print Assumptions C49_lists_refuted.
(** A schema with an absolute id: its references to its own definitions throw, for it is not known by that id.  Without the id they work. *)
Theorem C49_own_id_refuted : exists v w d, v = jtext "{""id"":""http://h/s"",""definitions"":{""a"":{""type"":""string""}},""properties"":{""x"":{""$ref"":""#/definitions/a""}}}" /\
  w = jtext "{""definitions"":{""a"":{""type"":""string""}},""properties"":{""x"":{""$ref"":""#/definitions/a""}}}" /\ d = jtext "{""x"":""t""}" /\
  (forall rx mc, asked v d rx mc = Throw RuntimeError) /\ forall rx mc, asked w d rx mc = Ok no_errors.
Proof. eexists _, _, _. split; [reflexivity|]. split; [reflexivity|]. split; [reflexivity|]. split; intros; vm_compute; reflexivity. Qed.
Print Assumptions C49_own_id_refuted.
(** A reference with a space in its fragment stands for the whole schema: 5 is accepted where a text is asked for.
    With the space encoded it is rejected. *)
Theorem C49_space_refuted : exists v w d, v = jtext "{""definitions"":{""a b"":{""type"":""string""}},""properties"":{""x"":{""$ref"":""#/definitions/a b""}}}" /\
  w = jtext "{""definitions"":{""a b"":{""type"":""string""}},""properties"":{""x"":{""$ref"":""#/definitions/a%20b""}}}" /\ d = jtext "{""x"":5}" /\
  (forall rx mc, asked v d rx mc = Ok no_errors) /\ forall rx mc, exists e, asked w d rx mc = Ok e /\ failed e = true.
Proof. eexists _, _, _. split; [reflexivity|]. split; [reflexivity|]. split; [reflexivity|]. split; intros; [vm_compute; reflexivity|]. eexists. split; vm_compute; reflexivity. Qed.
Print Assumptions C49_space_refuted.
(** A schema with a relative id, used twice with a loader that knows the schema it refers to: the first call
    rejects the data as it should, the second throws. *)
Theorem C49_twice_refuted : exists v t d, v = jtext "{""id"":""d/s"",""properties"":{""x"":{""$ref"":""t""}}}" /\ t = jtext "{""type"":""string""}" /\ d = jtext "{""x"":5}" /\
  forall rx mc, exists c1 c2 c3 st0 e st1 st2,
    (let* c := plant v in let* c' := plant t in let* c'' := plant d in ret (c, c', c'')) (HState [] []) = (Ok (c1, c2, c3), st0) /\
    validate_top rx 101 20 (v4, mc) [[(s2b "d/t", c2)]] c1 c3 st0 = (Ok e, st1) /\ failed e = true /\
    validate_top rx 101 20 (v4, mc) [[(s2b "d/t", c2)]] c1 c3 st1 = (Throw RuntimeError, st2).
Proof.
  eexists _, _, _. split; [reflexivity|]. split; [reflexivity|]. split; [reflexivity|]. intros rx mc. eexists _, _, _, _, _, _, _.
  split; [vm_compute; reflexivity|]. split; [vm_compute; reflexivity|]. split; vm_compute; reflexivity.
Qed.
Print Assumptions C49_twice_refuted.

(** ** C26: the call *)
(** SchemaValidate, called with a schema and data that are trees with no container in common, does what C26's
    theorems say of the schema after normalisation, with a loader that knows what [registers] and
    [found] say, and the data is what it was.  [chosen]: the schema that is used.  A schema given as a text, the URI of one that the loader has,
    is not covered. *)
Theorem C26_call_partial : forall rx fuel n st meta up vmeta vup s cs Fs d cd Fd s0,
  owns (h_heap st) s cs Fs -> NoDup Fs -> owns (h_heap st) d cd Fd -> (forall x, In x Fs -> ~ In x Fd) ->
  Forall2 (stocked (h_heap st) Fs) (new_loader meta up) (vmeta :: vup) ->
  (vdepth s <= n)%nat -> (vdepth d <= n)%nat -> (2 <= n)%nat -> shallow n (vmeta :: vup) -> lists_fit s -> fits (vmeta :: vup) -> chosen s d s0 ->
  exists known L st', validate_top rx fuel n meta up cs cd st = (schema_validate rx L fuel (vnorm [] s0) d, st') /\
    owns (h_heap st') d cd Fd /\ registers vmeta [] (vnorm [] s0) known /\
    (forall u w, found (known :: vup) u w -> L u = Ok w) /\ (forall u, missing (known :: vup) u -> L u = Throw RuntimeError).
Proof. intros. eapply call_tree; eauto. Qed.
Print Assumptions C26_call_partial.
Lemma fit_by b v : (forall q vs, vat v q = Some (VList vs) -> (List.length vs <= b)%nat) -> N.of_nat b < 2^32 - 1 -> lists_fit v.
Proof. intros H B q vs E. apply H in E. lia. Qed.
(** Texts and objects of texts. *)
Fixpoint listless (v : value) : bool :=
  match v with
  | VList _ => false
  | VMap m => (fix go m := match m with [] => true | (_, x) :: t => listless x && go t end)%bool m
  | _ => true
  end.
Lemma listless_get m k x : listless (VMap m) = true -> mget k m = Some x -> listless x = true.
Proof.
  cbn [listless]. induction m as [|[k' y] m IH]; [discriminate|]. intros H. apply andb_true_iff in H. destruct H as [Hy H]. cbn [mget]. destruct (beqb k k'); [congruence|]. apply IH, H.
Qed.
Lemma listless_fit v : listless v = true -> lists_fit v.
Proof.
  intros H q vs. revert v H; induction q as [|e q IH]; intros v H; cbn [vat]; [intros [= ->]; discriminate|].
  destruct v as [| | | | | | |m|]; try discriminate H; try discriminate. destruct e as [k|]; [|discriminate]. cbn [vchild].
  destruct (mget k m) as [x|] eqn:G; [|discriminate]. apply IH. eapply listless_get; eauto.
Qed.
Lemma only_one {A} (b : bool) (a v : A) : (if b then Some a else None) = Some v -> v = a.
Proof. destruct b; congruence. Qed.
Definition case_book : value := jtext "{""x"":5}".
Lemma planted_three v w x : vsortedb v = true -> vsortedb w = true -> vsortedb x = true ->
  exists st c F d G e H, owns (h_heap st) v c F /\ NoDup F /\ owns (h_heap st) w d G /\ NoDup G /\ owns (h_heap st) x e H /\ NoDup H /\ (forall s, In s F -> ~ In s G) /\ forall s, In s F -> ~ In s H.
Proof.
  intros Kv Kw Kx. destruct (plant_ok v (vsortedb_ok v Kv) (HState [] [])) as (c & st & F & E & X & O & N & Fr).
  destruct (plant_ok w (vsortedb_ok w Kw) st) as (d & st1 & G & E1 & X1 & O1 & N1 & Fr1). destruct (plant_ok x (vsortedb_ok x Kx) st1) as (e & st2 & H & E2 & X2 & O2 & N2 & Fr2).
  exists st2, c, F, d, G, e, H. split; [eapply extends_owns; [exact X2|]; eapply extends_owns; [exact X1|exact O]|]. split; [exact N|]. split; [eapply extends_owns; [exact X2|exact O1]|]. split; [exact N1|].
  split; [exact O2|]. split; [exact N2|]. assert (L1 := extends_len _ _ X1). split; intros s Hs Ht; specialize (Fr s Hs).
  - specialize (Fr1 s Ht). lia.
  - specialize (Fr2 s Ht). lia.
Qed.
Definition some_meta : value := jtext "{""id"":""http://json-schema.org/draft-04/schema#""}".
Example C26_call_shelf : exists st c F d G meta vmeta,
  owns (h_heap st) shelf c F /\ NoDup F /\ owns (h_heap st) case_book d G /\ (forall x, In x F -> ~ In x G) /\ fst meta = v4 /\
  Forall2 (stocked (h_heap st) F) (new_loader meta []) [vmeta] /\ (vdepth shelf <= 10)%nat /\ (vdepth case_book <= 10)%nat /\ shallow 10 [vmeta] /\ lists_fit shelf /\ fits [vmeta] /\ chosen shelf case_book shelf.
Proof.
  destruct (planted_three shelf case_book some_meta ltac:(vm_compute; reflexivity) ltac:(vm_compute; reflexivity) ltac:(vm_compute; reflexivity))
    as (st & c & F & d & G & e & H & O & N & O1 & N1 & O2 & N2 & D1 & D2).
  exists st, c, F, d, G, (v4, e), (fun u => if beqb u v4 then Some some_meta else None).
  split; [exact O|]. split; [exact N|]. split; [exact O1|]. split; [exact D1|]. split; [reflexivity|]. split; [constructor; [exact (one_stocked _ _ _ _ _ _ O2 N2 D2)|constructor]|].
  split; [vm_compute; lia|]. split; [vm_compute; lia|]. split; [|split; [apply listless_fit; vm_compute; reflexivity|split]].
  - intros o k v [<-|[]] E. apply only_one in E. subst v. vm_compute. lia.
  - intros o k v [<-|[]] E. apply only_one in E. subst v. apply listless_fit. vm_compute. reflexivity.
  - assert (Sm : exists m, shelf = VMap m) by (eexists; vm_compute; reflexivity). destruct Sm as [m ->]. apply chosen_given; [discriminate|]. intros u. discriminate.
Qed.

(** ** C27: the data is not modified *)
(** What the data reads as, at every path, is what it was: of data and a schema of any shape, with cycles and aliases,
    if no container is part of both the data and the schema or a schema that the loader has ([S1] and [S2]: what
    holds their storage; only texts may be in both), and if a "$schema" in the data, when that is what says which
    schema to use, is not a container.  However the call ends. *)
Theorem C27_unchanged_partial : forall rx fuel (S1 S2 : nat -> Prop) st meta up cs cd n r st1,
  closed S1 none st -> closed S2 none st -> texts_shared st S1 S2 -> inside S1 st cs -> inside S2 st cd -> all_of (new_loader meta up) (inside S1 st) ->
  schema_flat st cs cd -> validate_top rx fuel n meta up cs cd st = (r, st1) ->
  h_vars st1 = h_vars st /\ (forall s, S2 s -> nth_error (h_heap st1) s = nth_error (h_heap st) s) /\ forall p, shows st1 cd p = shows st cd p.
Proof. exact validate_side. Qed.
Print Assumptions C27_unchanged_partial.
(** A schema that contains itself, with texts; data that contains itself and shares a text with the schema. *)
Definition looped : hstate :=
  HState [CMap 1; CMap 2] [StStr (s2b "string"); StMap [(s2b "not", CMap 1); (s2b "type", CStr 0)]; StMap [(s2b "me", CMap 2); (s2b "x", CStr 0)]; StStr (s2b "m"); StMap [(s2b "title", CStr 3)]].
Definition schema_side (s : nat) : Prop := (s = 0 \/ s = 1 \/ s = 3 \/ s = 4)%nat.
Definition data_side (s : nat) : Prop := (s = 0 \/ s = 2)%nat.
Example C27_unchanged_ok : closed schema_side none looped /\ closed data_side none looped /\ texts_shared looped schema_side data_side /\ inside schema_side looped (CMap 1) /\
  inside data_side looped (CMap 2) /\ all_of (new_loader (v4, CMap 4) []) (inside schema_side looped) /\ schema_flat looped (CMap 1) (CMap 2).
Proof.
  assert (K : forall s, (s < 5)%nat -> forall x, nth_error (h_heap looped) s = Some x -> kind_at looped s (kind_of x)) by (intros s _ x E; exists x; auto).
  assert (I0 : forall S : nat -> Prop, S 0%nat -> inside S looped (CStr 0)) by (intros S H; split; [exact H|eexists; split; reflexivity]).
  assert (I1 : inside schema_side looped (CMap 1)) by (split; [unfold schema_side; auto|eexists; split; reflexivity]).
  assert (I2 : inside data_side looped (CMap 2)) by (split; [unfold data_side; auto|eexists; split; reflexivity]).
  assert (I3 : inside schema_side looped (CStr 3)) by (split; [unfold schema_side; auto|eexists; split; reflexivity]).
  split; [|split; [|split; [|split; [exact I1|split; [exact I2|split]]]]].
  - split; [intros x c []| | |].
    + intros s x c [-> | [-> | [-> | ->]]] E Ic; injection E as <-; cbn in Ic; try tauto.
      * destruct Ic as [<-|[<-|[]]]; [exact I1|]. apply I0. unfold schema_side; auto.
      * destruct Ic as [<-|[]]. exact I3.
    + intros s x [-> | [-> | [-> | ->]]] E; injection E as <-; try exact Logic.I; cbn [sorted_storage msorted List.map fst]; repeat (split; [let y := fresh in intros y Hy; cbn in Hy; repeat (destruct Hy as [<-|Hy]; [vm_compute; reflexivity|]); destruct Hy|]); exact Logic.I.
    + intros s [-> | [-> | [-> | ->]]]; cbn; lia.
  - split; [intros x c []| | |].
    + intros s x c [-> | ->] E Ic; injection E as <-; cbn in Ic; try tauto. destruct Ic as [<-|[<-|[]]]; [exact I2|]. apply I0. unfold data_side; auto.
    + intros s x [-> | ->] E; injection E as <-; try exact Logic.I; cbn [sorted_storage msorted List.map fst]; repeat (split; [let y := fresh in intros y Hy; cbn in Hy; repeat (destruct Hy as [<-|Hy]; [vm_compute; reflexivity|]); destruct Hy|]); exact Logic.I.
    + intros s [-> | ->]; cbn; lia.
  - intros s x H1 H2 E. destruct H2 as [-> | ->]; [injection E as <-; intros []|]. destruct H1 as [H1|[H1|[H1|H1]]]; discriminate H1.
  - intros o k c [<-|[]]. unfold fst. cbn [mget]. destruct (beqb k v4); [|discriminate]. intros [= <-]. split; [unfold schema_side; auto|eexists; split; reflexivity].
  - intros E. discriminate E.
Qed.

(** Without a schema, "$schema" in the data says which to use; if it is an object, AddSchema normalises that object, which is part of the data. *)
Theorem C27_schema_in_data_refuted : exists d, d = jtext "{""$schema"":{""$ref"":""a/../b""}}" /\
  forall rx mc, exists c st st' v, both VNull d = (Ok (CNull, c), st) /\ read_out 10 c st = (Ok d, st) /\
    validate_top rx 101 20 (v4, mc) [] CNull c st = (Ok no_errors, st') /\ read_out 10 c st' = (Ok v, st') /\ v = jtext "{""$schema"":{""$ref"":""b""}}".
Proof.
  eexists. split; [reflexivity|]. intros rx mc. eexists _, _, _, _. split; [vm_compute; reflexivity|]. split; [vm_compute; reflexivity|]. split; [vm_compute; reflexivity|].
  split; [vm_compute; reflexivity|vm_compute; reflexivity].
Qed.
Print Assumptions C27_schema_in_data_refuted.
(** The data is part of the schema: a default value that is validated against its schema changes. *)
Theorem C27_shared_refuted : exists s, s = jtext "{""default"":{""id"":""a/../b""},""type"":""object""}" /\
  forall rx mc, exists c st st' d v, both s VNull = (Ok (c, CNull), st) /\ child st c (PKey (s2b "default")) = Some d /\
    read_out 10 d st = (Ok (jtext "{""id"":""a/../b""}"), st) /\ validate_top rx 101 20 (v4, mc) [] c d st = (Ok no_errors, st') /\
    read_out 10 d st' = (Ok v, st') /\ v = jtext "{""id"":""b""}".
Proof.
  eexists. split; [reflexivity|]. intros rx mc. eexists _, _, _, _, _. split; [vm_compute; reflexivity|]. split; [vm_compute; reflexivity|]. split; [vm_compute; reflexivity|]. split; [vm_compute; reflexivity|].
  split; [vm_compute; reflexivity|vm_compute; reflexivity].
Qed.
Print Assumptions C27_shared_refuted.
(** An object in "$schema" is not used as the schema: whatever it asks for, the data is accepted. *)
Theorem C26_schema_in_data_refuted : exists d, d = jtext "{""$schema"":{""required"":[""x""]}}" /\
  (forall rx mc, asked VNull d rx mc = Ok no_errors) /\ forall rx mc, exists e, asked (jtext "{""required"":[""x""]}") d rx mc = Ok e /\ failed e = true.
Proof. eexists. split; [reflexivity|]. split; intros; [vm_compute; reflexivity|]. eexists. split; vm_compute; reflexivity. Qed.
Print Assumptions C26_schema_in_data_refuted.
