(** C14: assigning to an element.  C15: erasing.  C16: merging. *)
From Verif Require Import Base Float Value Blob Path Numeric Heap HeapProofs HeapSpec ValueOps HeapTree HeapErase HeapTreeFacts HeapAny P_Sharing.
Open Scope N_scope.

(** ** C14 *)

(** The object at [l] holds the tree [v]; the tree [x] that is assigned shares no container with
    it.  Either the assignment to the path [p] succeeds, and then: [l] holds a tree; below [p] it
    reads like [x]; beside [p] it reads as before, except that a list that was too short now has
    nulls; what leads to [p] are containers of the kind the path asks for; reading [p] back finds
    an object that holds [x]; and every other object that is not part of the tree is as it was.
    Or it throws, nothing has changed, and the path leads through something that is neither null
    nor a container of the right kind.
    Missing: index 2^32-1 ([C14_index_refuted]) and documents that share containers with
    themselves, of which [C14_one_object_changes] speaks. *)
Theorem C14_set_path_exact_partial st l v c F p x cx G :
  tree st l v c F -> path_small p -> owns (h_heap st) x cx G -> NoDup G -> apart F G -> outside l G ->
  (exists st' v' c' F', set_path p l cx st = (Ok tt, st') /\ tree st' l v' c' F' /\
     (forall q, vat v' (p ++ q) = vat x q) /\
     (forall q, diverge p q -> vat v' q = vat v q \/ vat v q = None /\ vat v' q = Some VNull /\ padding p q) /\
     (forall q e r, p = q ++ e :: r ->
        (match vat v q with Some w => w = VNull \/ kind_for e w | None => True end) /\
        exists w', vat v' q = Some w' /\ kind_for e w') /\
     (exists l' cx' G', get_path p l false st' = (Ok (Some l'), st') /\ tree st' l' x cx' G') /\
     (forall l2 d, l2 <> l -> peek st l2 = Some d -> outside l2 F -> peek st' l2 = Some d)) \/
  (set_path p l cx st = (Throw UnexpectedTypeError, st) /\
   exists q e r w, p = q ++ e :: r /\ vat v q = Some w /\ w <> VNull /\ ~ kind_for e w).
Proof.
  intros T S O N A OG. assert (K := owns_sorted _ _ _ _ (tr_owns _ _ _ _ _ T)).
  assert (H := set_path_tree p st l v c F x cx G T S O N A OG). destruct (vset v p x) as [v'|] eqn:V.
  - left. destruct H as (st' & E & B). assert (EL := elsewhere _ _ _ _ _ _ _ _ T B). destruct B as (c' & F' & T' & Rest).
    exists st', v', c', F'. split; [exact E|]. split; [exact T'|]. split; [intros q; eapply vat_vset; eauto|].
    split; [intros q D; eapply vat_vset_other; eauto|]. split; [intros q e r ->; eapply vat_vset_above; eauto|].
    split; [|exact EL]. assert (R := get_path_tree p st' l v' c' F' T').
    assert (Q := vat_vset v p x v' [] K V). rewrite app_nil_r in Q. rewrite Q in R. cbn [vat] in R.
    destruct R as (l' & cw & Fw & R1 & R2 & _). eauto.
  - right. split; [exact H|]. apply vset_fails in V. exact V.
Qed.
Print Assumptions C14_set_path_exact_partial.

(** Set of one key or index is SetPath of the path with that element. *)
Theorem C14_set_elem_is_set_path l e c st d : peek st l = Some d -> wf st -> elem_small e -> set_elem l e c st = set_path [e] l c st.
Proof.
  intros P W S. cbn [set_path]. destruct (base d e) as [s|] eqn:B.
  - destruct (wf_base _ _ _ _ _ W P B) as (x & X & K). destruct (slot_get x e) as [cw|] eqn:G.
    + rewrite (bind_ok _ _ _ _ _ (get_elem_slot _ _ _ _ false _ _ _ P B X G)), (set_elem_base _ _ _ _ _ _ P B).
      destruct e as [k|i], x; try destruct K; cbn [put_elem slot_get slot] in *.
      * unfold map_set_key, map_insert. rewrite bind_assoc, (bind_get_map _ _ _ _ X), G. reflexivity.
      * unfold list_set_index. rewrite (bind_get_list _ _ _ _ X), (nthN_lt _ _ _ G). rewrite (bind_ok (ret tt) _ st tt st eq_refl).
        unfold list_at. rewrite bind_assoc, (bind_get_list _ _ _ _ X), (nthN_lt _ _ _ G). reflexivity.
    + rewrite (bind_ok _ _ _ _ _ (get_elem_slot_none _ _ _ _ _ _ P B X K G)). reflexivity.
  - rewrite (bind_ok _ _ _ _ _ (get_elem_nobase _ _ _ _ P B)). reflexivity.
Qed.
Print Assumptions C14_set_elem_is_set_path.

(** [v.AtPath(p) = c] is [v.SetPath(p, c)], whatever is there and whether or not it throws. *)
Theorem C14_assign_path x p r st :
  exec (OAssign (LV x p) r) st = (let* c := eval_rval r in set_path p (LVar x) c) st.
Proof. apply exec_assign_path. Qed.
Print Assumptions C14_assign_path.
(** So is [v[a][b]... = c]. *)
Theorem C14_assign_chain x es c st : wf st -> peek st (LVar x) <> None ->
  (let* r := chain (RRef (LVar x)) es in let* l := resolve_create r in assign c l) st = set_path es (LVar x) c st.
Proof. apply chain_assign. Qed.
Print Assumptions C14_assign_chain.

(** In any heap, with storages shared and in cycles as it may be, one object at most changes: the
    one at the end of the path, or a null, or none (an element is added to a container).  When it
    throws nothing has changed. *)
Theorem C14_one_object_changes p st l c d : wf st -> maps_sorted st -> peek st l = Some d -> path_small p ->
  (exists st' l0, set_path p l c st = (Ok tt, st') /\
     (forall l2 d2, l2 <> l0 -> peek st l2 = Some d2 -> peek st' l2 = Some d2) /\
     (get_path p l false st = (Ok (Some l0), st) /\ peek st' l0 = Some c \/
      get_path p l false st = (Ok None, st) /\ (peek st l0 = Some CNull \/ peek st l0 = None))) \/
  set_path p l c st = (Throw UnexpectedTypeError, st).
Proof. apply set_path_any. Qed.
Print Assumptions C14_one_object_changes.

(** Every tree can be put in a variable, and another beside it. *)
Theorem C14_trees_exist v x : vsorted v -> vsorted x -> exists st c F cx G,
  tree st (LVar 0) v c F /\ owns (h_heap st) x cx G /\ NoDup G /\ apart F G /\ outside (LVar 0) G.
Proof.
  intros Kv Kx. destruct (plant_ok v Kv (HState [CNull] [])) as (c & st1 & F & E1 & X1 & O1 & N1 & Fr1).
  destruct (plant_ok x Kx (HState [c] (h_heap st1))) as (cx & st2 & G & E2 & X2 & O2 & N2 & Fr2).
  exists st2, c, F, cx, G. split; [|split; [exact O2|split; [exact N2|split; [|exact I]]]].
  - apply (extends_tree _ _ _ _ _ _ X2). split; cbn; auto.
  - intros s J J'. apply Fr1 in J. apply Fr2 in J'. unfold hlen in *. cbn in *. lia.
Qed.
Print Assumptions C14_trees_exist.

(** A document with a map, a list and a null: {"a": [1, 2], "b": null}. *)
Definition doc : value := VMap [(ka, VList [VInt 1; VInt 2]); (kb, VNull)].
Definition doc_st : hstate := HState [CMap 1; CInt 5] [StList [CInt 1; CInt 2]; StMap [(ka, CList 0); (kb, CNull)]].
Example C14_demo_tree : tree doc_st (LVar 0) doc (CMap 1) [1; 0]%nat.
Proof.
  split; try exact I.
  - reflexivity.
  - apply owns_VMap. exists [(ka, CList 0); (kb, CNull)], [[0%nat]; []]. split; [reflexivity|]. split; [reflexivity|]. split.
    { cbn. repeat split; try (intros k' [<-|[]]; reflexivity); intros k' []. }
    split; [reflexivity|]. cbn [List.map snd owns_list]. split; [|cbn; auto].
    apply owns_VList. exists [CInt 1; CInt 2], [[]; []]. cbn. repeat split; auto.
  - repeat constructor; cbn; intuition discriminate.
Qed.
Definition deep : path := [PKey kb; PIdx 2; PKey ka].
Example C14_demo : path_small deep /\
  exists st', set_path deep (LVar 0) (CInt 9) doc_st = (Ok tt, st') /\
    see st' 0 deep = Some (ShInt 9) /\ see st' 0 [PKey kb; PIdx 1] = Some ShNull /\ see st' 0 [PKey ka; PIdx 1] = Some (ShInt 2) /\ see st' 1 [] = Some (ShInt 5).
Proof.
  split; [repeat constructor; cbn; lia|]. eexists. split; [vm_compute; reflexivity|]. vm_compute. auto.
Qed.
Example C14_demo_throws :
  set_path [PKey ka; PKey kb; PIdx 0] (LVar 0) (CInt 9) doc_st = (Throw UnexpectedTypeError, doc_st) /\
  set_path [PIdx 0] (LVar 0) (CInt 9) doc_st = (Throw UnexpectedTypeError, doc_st).
Proof. vm_compute. auto. Qed.

(** Reading back can find something else when the value contains the target: after [v["a"] = v]
    the assignment [v.SetPath("/a/a", 7)] overwrites the entry it went through. *)
Theorem C14_read_back_refuted : exists st st', wf st /\ maps_sorted st /\
  set_path [PKey ka; PKey ka] (LVar 0) (CInt 7) st = (Ok tt, st') /\
  get_path [PKey ka; PKey ka] (LVar 0) false st' = (Ok None, st').
Proof.
  exists (HState [CMap 0] [StMap [(ka, CMap 0)]]). eexists. split; [apply wfb_sound; vm_compute; reflexivity|]. split.
  - intros [|[|s]] m E; try discriminate. injection E as <-. cbn. repeat split; intros k [].
  - split; vm_compute; reflexivity.
Qed.
Print Assumptions C14_read_back_refuted.

(** Assigning to index 2^32-1 empties the list first (the new size is a 32-bit sum, 0) and then
    throws. *)
Theorem C14_index_refuted : exists st st', tree st (LVar 0) (VList [VInt 1; VInt 2]) (CList 0) [0%nat] /\
  set_path [PIdx (2^32 - 1)] (LVar 0) (CInt 7) st = (Throw OutOfRange, st') /\
  see st' 0 [PIdx 0] = None /\ see st 0 [PIdx 0] = Some (ShInt 1).
Proof.
  exists (HState [CList 0] [StList [CInt 1; CInt 2]]). eexists. split; [|split; [vm_compute; reflexivity|vm_compute; auto]].
  split; try exact I; try reflexivity.
  - apply owns_VList. exists [CInt 1; CInt 2], [[]; []]. cbn. repeat split; auto.
  - repeat constructor. intros [].
Qed.
Print Assumptions C14_index_refuted.

(** ** C15 *)

(** Erase and ErasePath of the path [p], [remove_empty] false, on an object that holds the tree
    [v].  It succeeds, and then: beside [p] and above it everything is as before; [p] is gone, or
    null when it is an entry of a list with others behind it; if there was nothing at [p], the tree
    is the same; and every object outside the tree is as it was.  Or it throws, nothing has
    changed, and the last element of the path is asked of something that is neither null nor a
    container of the right kind.
    Missing: lists of 2^32 entries and more, index 2^32-1 ([C15_index_refuted]). *)
Theorem C15_erase_exact_partial st l v c F p : tree st l v c F -> path_small p -> all_short v -> p <> [] ->
  (exists st' v' c' F', erase_path p l false st = (Ok tt, st') /\ tree st' l v' c' F' /\
     (forall q, diverge p q -> vat v' q = vat v q) /\
     (vat v' p = None /\ get_path p l false st' = (Ok None, st') \/
      vat v' p = Some VNull /\ exists q i xs, p = q ++ [PIdx i] /\ vat v q = Some (VList xs) /\ i + 1 < N.of_nat (List.length xs)) /\
     (vat v p = None -> v' = v) /\
     (vat v p <> None -> forall q e r, p = q ++ e :: r -> exists w', vat v' q = Some w' /\ kind_for e w') /\
     (forall l2 d, l2 <> l -> peek st l2 = Some d -> outside l2 F -> peek st' l2 = Some d)) \/
  (erase_path p l false st = (Throw UnexpectedTypeError, st) /\
   exists q e w, p = q ++ [e] /\ vat v q = Some w /\ w <> VNull /\ ~ kind_for e w).
Proof.
  intros T S A N. assert (K := owns_sorted _ _ _ _ (tr_owns _ _ _ _ _ T)).
  assert (H := erase_path_tree p st l v c F false T S A). destruct (verase v p false) as [v'|x| | |] eqn:V; try (exfalso; exact H).
  - left. destruct H as (st' & E & B). assert (EL := elsewhere _ _ _ _ _ _ _ _ T B). destruct B as (c' & F' & T' & _).
    exists st', v', c', F'. split; [exact E|]. split; [exact T'|]. split; [intros q; eapply verase_other; eauto|]. split.
    { destruct (verase_gone_exact _ _ _ _ K N V) as [G|(G & q & e & w & Ep & Aq & I)].
      - left. split; auto. assert (R := get_path_tree p st' l v' c' F' T'). rewrite G in R. exact R.
      - right. split; auto. destruct e, w; try (exfalso; exact I). exists q, i, l0. auto. }
    split; [intros Ab; eapply verase_absent; eauto|]. split; [|exact EL]. intros Ab q e r ->. eapply verase_above; eauto.
  - destruct (verase_fails _ _ _ K V) as [-> R]. right. auto.
Qed.
Print Assumptions C15_erase_exact_partial.


Lemma erase_remove_empty_succeeds v p : vsorted v -> vat v p <> None -> exists v', verase v p true = Ok v'.
Proof.
  assert (H : forall p v, vsorted v -> vat v p <> None -> exists v', verase v p true = Ok v' /\ (p <> [] -> vempty v' <> None)).
  { induction p0 as [|e p0 IH]; intros w K A; [exists w; split; [reflexivity|congruence]|]. cbn [vat] in A. destruct (vchild w e) as [x|] eqn:W; [|congruence].
    assert (Kd := vchild_kind _ _ _ W). destruct p0 as [|e2 p0].
    - cbn. destruct e, Kd as [z ->]; cbn; eexists; (split; [reflexivity|]); intros _; cbn; congruence.
    - rewrite verase_cons by discriminate. rewrite W. destruct (IH x (vsorted_child _ _ _ K W) A) as (x' & Q & Em). rewrite Q. cbn [rbind].
      assert (exists w1, vset_elem w e x' = Some w1 /\ kind_for e w1) as (w1 & V & K1).
      { destruct e, Kd as [z ->]; cbn; eexists; (split; [reflexivity|]); cbn; eauto. }
      rewrite V. destruct (vempty x') as [[|]|]; [| |destruct (Em ltac:(discriminate) eq_refl)].
      + destruct e, K1 as [z ->]; cbn; eexists; (split; [reflexivity|]); intros _; cbn; congruence.
      + exists w1. split; auto. intros _. destruct e, K1 as [z ->]; cbn; congruence. }
  intros K A. destruct (H p v K A) as (v' & E & _). eauto.
Qed.

(** With [remove_empty] on a tree: it succeeds, and then beside [p] everything is as before; [p] is
    gone as above; every container on the way that is left is not empty; nothing changes if there
    was nothing at [p] and nothing empty on the way.  Or there was nothing at [p], it throws, and
    nothing has changed. *)
Theorem C15_erase_remove_empty_partial st l v c F p : tree st l v c F -> path_small p -> all_short v -> p <> [] ->
  (exists st' v' c' F', erase_path p l true st = (Ok tt, st') /\ tree st' l v' c' F' /\
     (forall q, diverge p q -> vat v' q = vat v q) /\
     (vat v' p = None /\ get_path p l false st' = (Ok None, st') \/
      vat v' p = Some VNull /\ exists q i xs, p = q ++ [PIdx i] /\ vat v q = Some (VList xs) /\ i + 1 < N.of_nat (List.length xs)) /\
     (vat v p <> None -> forall q r, p = q ++ r -> q <> [] -> r <> [] ->
        gone (vat v' q) \/ exists w', vat v' q = Some w' /\ vempty w' = Some false) /\
     (vat v p = None -> (forall q r w, p = q ++ r -> q <> [] -> vat v q = Some w -> vempty w <> Some true) -> v' = v) /\
     (forall l2 d, l2 <> l -> peek st l2 = Some d -> outside l2 F -> peek st' l2 = Some d)) \/
  (vat v p = None /\ exists x, erase_path p l true st = (Throw x, st)).
Proof.
  intros T S A N. assert (K := owns_sorted _ _ _ _ (tr_owns _ _ _ _ _ T)).
  assert (H := erase_path_tree p st l v c F true T S A). destruct (verase v p true) as [v'|x| | |] eqn:V; try (exfalso; exact H).
  2:{ right. split; [|eauto]. destruct (vat v p) eqn:Q; auto. destruct (erase_remove_empty_succeeds v p K) as [v' E]; congruence. }
  left. destruct H as (st' & E & B).
  assert (EL := elsewhere _ _ _ _ _ _ _ _ T B). destruct B as (c' & F' & T' & _).
  exists st', v', c', F'. split; [exact E|]. split; [exact T'|]. split; [intros q; eapply verase_other; eauto|]. split.
  { destruct (verase_gone_exact _ _ _ _ K N V) as [G|(G & q & e & w & Ep & Aq & I)].
    - left. split; auto. assert (R := get_path_tree p st' l v' c' F' T'). rewrite G in R. exact R.
    - right. split; auto. destruct e, w; try (exfalso; exact I). exists q, i, l0. auto. }
  split; [|split; [|exact EL]].
  - intros Ab q r -> Nq Nr. destruct r as [|e r]; [congruence|]. eapply verase_no_empty; eauto.
  - intros Ab H. eapply verase_absent_full; eauto.
Qed.
Print Assumptions C15_erase_remove_empty_partial.
(** Erase of one key or index is ErasePath of the path with that element. *)
Theorem C15_erase_elem_is_erase_path l e st rm : erase_path [e] l rm st = erase_elem l e st.
Proof. reflexivity. Qed.

Lemma doc_short : all_short doc.
Proof.
  intros q w. destruct q as [|[k|i] q]; cbn [vat vchild doc]; intros E; [injection E as <-; exact I| |discriminate].
  cbn [mget] in E. destruct (beqb k ka).
  - destruct q as [|[k2|i2] q]; [injection E as <-; reflexivity|discriminate|]. cbn [vat vchild] in E.
    destruct (N.to_nat i2) as [|[|[|n]]]; cbn in E; try discriminate; destruct q as [|[]]; cbn in E; try discriminate; injection E as <-; exact I.
  - destruct (beqb k kb); [|discriminate]. destruct q as [|[] q]; try discriminate. injection E as <-. exact I.
Qed.
Example C15_demo : path_small [PKey ka; PIdx 0] /\ vat doc [PKey ka; PIdx 0] = Some (VInt 1) /\
  (exists st', erase_path [PKey ka; PIdx 0] (LVar 0) false doc_st = (Ok tt, st') /\
     see st' 0 [PKey ka; PIdx 0] = Some ShNull /\ see st' 0 [PKey ka; PIdx 1] = Some (ShInt 2)) /\
  (exists st', erase_path [PKey ka; PIdx 1] (LVar 0) false doc_st = (Ok tt, st') /\
     see st' 0 [PKey ka; PIdx 1] = None /\ see st' 0 [PKey ka; PIdx 0] = Some (ShInt 1)) /\
  (exists st', erase_path [PKey ka] (LVar 0) true doc_st = (Ok tt, st') /\
     see st' 0 [PKey ka] = None /\ see st' 0 [PKey kb] = Some ShNull).
Proof.
  split; [repeat constructor; cbn; lia|]. split; [reflexivity|].
  repeat split; eexists; (split; [vm_compute; reflexivity|vm_compute; auto]).
Qed.

(** An entry of a list that is not the last one is not removed but set to null: the path is still
    reported present. *)
Theorem C15_list_entry_refuted : exists st st', tree st (LVar 0) (VList [VInt 1; VInt 2]) (CList 0) [0%nat] /\
  erase_path [PIdx 0] (LVar 0) false st = (Ok tt, st') /\ has_path (LVar 0) [PIdx 0] st' = (Ok true, st').
Proof.
  exists (HState [CList 0] [StList [CInt 1; CInt 2]]). eexists. split; [|split; [vm_compute; reflexivity|vm_compute; auto]].
  split; try exact I; try reflexivity.
  - apply owns_VList. exists [CInt 1; CInt 2], [[]; []]. cbn. repeat split; auto.
  - repeat constructor. intros [].
Qed.
Print Assumptions C15_list_entry_refuted.
(** Erasing an absent path with [remove_empty] removes what is empty on the way to it: from
    {"a": "", "b": 1}, {"a": null, "b": 1} and {"a": {}, "b": 1} the path /a/b/a takes away "a";
    from {"a": 5} it throws. *)
Definition pabs : path := [PKey ka; PKey kb; PKey ka].
Theorem C15_absent_refuted :
  (forall c h, In (c, h) [(CStr 1, StStr []); (CNull, StStr []); (CMap 1, StMap [])]%nat ->
     exists st', erase_path [PKey ka; PKey kb; PKey ka] (LVar 0) true (HState [CMap 0] [StMap [(ka, c); (kb, CInt 1)]; h]) = (Ok tt, st') /\
       has_path (LVar 0) [PKey ka] (HState [CMap 0] [StMap [(ka, c); (kb, CInt 1)]; h]) = (Ok true, HState [CMap 0] [StMap [(ka, c); (kb, CInt 1)]; h]) /\
       has_path (LVar 0) [PKey ka] st' = (Ok false, st')) /\
  erase_path [PKey ka; PKey kb; PKey ka] (LVar 0) true (HState [CMap 0] [StMap [(ka, CInt 5)]]) =
    (Throw InvalidOperationError, HState [CMap 0] [StMap [(ka, CInt 5)]]).
Proof.
  split; [|vm_compute; reflexivity].
  intros c h [E|[E|[E|[]]]]; injection E as <- <-; eexists; (split; [vm_compute; reflexivity|vm_compute; auto]).
Qed.
Print Assumptions C15_absent_refuted.
(** Erasing index 2^32-1, which is absent, throws on a list that is not empty. *)
Theorem C15_index_refuted : exists st, wf st /\
  erase_elem (LVar 0) (PIdx (2^32 - 1)) st = (Throw OutOfRange, st).
Proof. exists (HState [CList 0] [StList [CInt 1]]). split; [apply wfb_sound; vm_compute; reflexivity|vm_compute; reflexivity]. Qed.
Print Assumptions C15_index_refuted.

(** ** C16 *)

(** In any heap: the object at [l] is a map (not one it is itself an element of), [other] a map,
    possibly the same one.  Afterwards the map has, under every key of [other], what [other] has,
    under every other key what it had; no other storage and no variable has changed. *)
Theorem C16_merge_union st l s m so o : outside l [s] -> peek st l = Some (CMap s) ->
  nth_error (h_heap st) s = Some (StMap m) -> nth_error (h_heap st) so = Some (StMap o) -> msorted m -> msorted o -> exists st' m',
  merge (RRef l) (CMap so) st = (Ok tt, st') /\ nth_error (h_heap st') s = Some (StMap m') /\ msorted m' /\
  (forall k, mget k m' = match mget k o with Some c => Some c | None => mget k m end) /\
  h_vars st' = h_vars st /\ hlen st' = hlen st /\ forall t, t <> s -> nth_error (h_heap st') t = nth_error (h_heap st) t.
Proof. apply merge_any. Qed.
Print Assumptions C16_merge_union.

(** The same on documents; a null target becomes a map when there is something to merge, and any
    other target makes it throw, with nothing changed, when there is. *)
Theorem C16_merge_trees st l v c F om so G : tree st l v c F -> owns (h_heap st) (VMap om) (CMap so) (so :: G) ->
  NoDup (so :: G) -> apart F (so :: G) -> outside l (so :: G) ->
  (om = [] /\ merge (RRef l) (CMap so) st = (Ok tt, st)) \/
  (om <> [] /\ v <> VNull /\ (forall vm, v <> VMap vm) /\ merge (RRef l) (CMap so) st = (Throw UnexpectedTypeError, st)) \/
  exists st' vm' c' F', merge (RRef l) (CMap so) st = (Ok tt, st') /\ tree st' l (VMap vm') c' F' /\
    (forall k, vat (VMap vm') [PKey k] = match vat (VMap om) [PKey k] with Some x => Some x | None => vat v [PKey k] end) /\
    owns (h_heap st') (VMap om) (CMap so) (so :: G) /\
    (forall l2 d, l2 <> l -> peek st l2 = Some d -> outside l2 F -> peek st' l2 = Some d).
Proof.
  intros T O ND A OL. assert (H := merge_tree st l v c F om so G T O ND A OL).
  assert (K := owns_sorted _ _ _ _ (tr_owns _ _ _ _ _ T)). assert (Ko := owns_sorted _ _ _ _ O). apply vsorted_map in Ko. destruct Ko as [Ko _].
  destruct om as [|kv om]; [left; auto|right].
  assert (Fin : forall vm, msorted vm -> (forall k, vat v [PKey k] = mget k vm) ->
    (exists st', merge (RRef l) (CMap so) st = (Ok tt, st') /\ becomes st l F G st' (VMap (union vm (kv :: om))) /\
                    owns (h_heap st') (VMap (kv :: om)) (CMap so) (so :: G)) ->
    exists st' vm' c' F', merge (RRef l) (CMap so) st = (Ok tt, st') /\ tree st' l (VMap vm') c' F' /\
    (forall k, vat (VMap vm') [PKey k] = match vat (VMap (kv :: om)) [PKey k] with Some x => Some x | None => vat v [PKey k] end) /\
    owns (h_heap st') (VMap (kv :: om)) (CMap so) (so :: G) /\
    (forall l2 d, l2 <> l -> peek st l2 = Some d -> outside l2 F -> peek st' l2 = Some d)).
  { intros vm Kv Hv (st' & E & B & Oo). assert (EL := elsewhere _ _ _ _ _ _ _ _ T B). destruct B as (c' & F' & T' & _).
    exists st', (union vm (kv :: om)), c', F'. split; [exact E|]. split; [exact T'|]. split; [|auto].
    intros k. rewrite Hv. cbn [vat vchild]. rewrite mget_union by auto. destruct (mget k (kv :: om)); [reflexivity|]. destruct (mget k vm); reflexivity. }
  destruct v; try (left; split; [discriminate|split; [discriminate|split; [discriminate|exact H]]]); right.
  - apply (Fin []); auto; exact I.
  - apply (Fin m); auto. { apply vsorted_map in K. apply K. } intros k. cbn [vat vchild]. destruct (mget k m); reflexivity.
Qed.
Print Assumptions C16_merge_trees.

Definition two_maps : hstate := HState [CMap 0; CMap 1] [StMap [(ka, CInt 1); (kb, CInt 2)]; StMap [(kb, CInt 3); (kn, CNull)]].
Example C16_demo : exists st', merge (RRef (LVar 0)) (CMap 1) two_maps = (Ok tt, st') /\
  see st' 0 [PKey ka] = Some (ShInt 1) /\ see st' 0 [PKey kb] = Some (ShInt 3) /\ see st' 0 [PKey kn] = Some ShNull /\
  see st' 1 [] = see two_maps 1 [] /\ see st' 1 [PKey kb] = Some (ShInt 3).
Proof. eexists. split; [vm_compute; reflexivity|vm_compute; auto]. Qed.
Example C16_demo_hyps : outside (LVar 0) [0%nat] /\ peek two_maps (LVar 0) = Some (CMap 0) /\
  msorted [(ka, CInt 1); (kb, CInt 2)] /\ msorted [(kb, CInt 3); (kn, CNull)].
Proof. split; [exact I|]. split; [reflexivity|]. cbn. repeat split; try (intros k' [<-|[]]; reflexivity); intros k' []. Qed.
