(** C22: a JSON patch is applied completely or not at all. *)
From Verif Require Import Base CNum Float Value Blob Path Numeric Convert Emit Uri P_Uri Heap HeapProofs HeapSpec SharingProofs ValueOps HeapTree
  HeapErase HeapTreeFacts Pointer PointerWalk PointerOps PointerCmp PointerSem PatchSem PointerText P_Sharing P_Elements P_Pointer.
Open Scope N_scope.

(** The document at [l] and the patch at [d] are trees that share nothing.  [steps_of] reads the patch,
    [run] performs its steps one after the other; [None] when one of them fails.  When all succeed the
    document is what the steps make of it, and nothing changes but the containers of the document and
    of the patch, whose values become parts of the document.  When one fails, JSONPatch returns false and
    the program is in the state it was in, to the last storage.
    Missing: what [admissible] and [reversible] leave out.  See the refutations below. *)
Theorem C22_all_or_nothing_partial st l v c F d dv dc Fd : tree st l v c F -> tree st d dv dc Fd -> apart F Fd -> outside l Fd -> outside d F -> d <> l ->
  along admissible v (steps_of dv) -> along reversible v (steps_of dv) ->
  (exists v' st' c' F', run v (steps_of dv) = Some v' /\ json_patch (RRef l) d st = (Ok true, st') /\ tree st' l v' c' F' /\
     (forall l2 x, l2 <> l -> peek st l2 = Some x -> outside l2 F -> outside l2 Fd -> peek st' l2 = Some x)) \/
  (run v (steps_of dv) = None /\ json_patch (RRef l) d st = (Ok false, st)).
Proof.
  intros T Td A O1 O2 NL Ad Rv. assert (H := json_patch_sem st l v c F d dv dc Fd T Td A O1 O2 NL Ad). destruct (run v (steps_of dv)) as [v'|].
  - left. destruct H as (st' & c' & F' & E & T' & I & V & N & L). exists v', st', c', F'. repeat split; auto; try apply T'.
    intros l2 x Ne P2 OF OFd. destruct l2 as [y|s i|s k]; cbn [peek outside] in *.
    + rewrite V. destruct l; cbn; auto. rewrite nth_lput. destruct (Nat.eqb_spec y x0); auto. subst. congruence.
    + destruct (nth_error (h_heap st) s) as [[|cs| |]|] eqn:X; try discriminate.
      rewrite N, X; [|unfold hlen; apply nth_error_Some; congruence|rewrite in_app_iff; tauto].
      destruct l as [|s' i'|s' k']; cbn; auto; destruct (Nat.eqb_spec s s'); auto. unfold nthN in *. rewrite nth_lput.
      destruct (Nat.eqb_spec (N.to_nat i) (N.to_nat i')); auto. apply N2Nat.inj in e0. subst. congruence.
    + destruct (nth_error (h_heap st) s) as [[| |m|]|] eqn:X; try discriminate.
      rewrite N, X; [|unfold hlen; apply nth_error_Some; congruence|rewrite in_app_iff; tauto].
      destruct l as [|s' i'|s' k']; cbn; auto; destruct (Nat.eqb_spec s s'); auto. subst s'.
      assert (S := tr_sort _ _ _ _ _ T). cbn in S. rewrite mget_mset by (apply S; exact X). destruct (beqb k k') eqn:B; auto. apply beqb_eq in B. subst. congruence.
  - right. split; auto.
Qed.
Print Assumptions C22_all_or_nothing_partial.

(** ** The steps are those of RFC 6902 *)
(** An operation object is read as the RFC says; members that are not needed do not matter. *)
Definition op_object (d : value) (op : string) : Prop := vchild d (PKey (s2b "op")) = Some (VStr (s2b op)).
Definition has_pointer (d : value) (k : string) (ks : list bytes) : Prop := vchild d (PKey (s2b k)) = Some (VStr (rfc_text ks)).
Definition has_value (d : value) (x : value) : Prop := vchild d (PKey (s2b "value")) = Some x.
Theorem C22_reads_operations d ks from x :
  (op_object d "add" -> has_pointer d "path" ks -> has_value d x -> decode d = SAdd ks x) /\
  (op_object d "remove" -> has_pointer d "path" ks -> decode d = SRemove ks) /\
  (op_object d "replace" -> has_pointer d "path" ks -> has_value d x -> decode d = SReplace ks x) /\
  (op_object d "move" -> has_pointer d "from" from -> has_pointer d "path" ks -> decode d = SMove from (Some ks)) /\
  (op_object d "copy" -> has_pointer d "from" from -> has_pointer d "path" ks -> decode d = SCopy from ks) /\
  (op_object d "test" -> has_pointer d "path" ks -> has_value d x -> decode d = STest ks x).
Proof.
  unfold op_object, has_pointer, has_value, decode, pointer_of, ptext. repeat split; intros H1 H2; try intros H3; rewrite H1, H2; try rewrite H3; cbn [as_string];
    rewrite ?components_text; reflexivity.
Qed.
Print Assumptions C22_reads_operations.
(** A step succeeds when the RFC lets it, and does what the RFC says. *)
Theorem C22_step_add v ks x : vsorted v -> lists_fit v ->
  (forall v', outcome v (SAdd ks x) = Some v' -> Forall canonical ks -> exists p, target v ks p /\ inserted v p x v') /\
  (forall p, target v ks p -> exists v', outcome v (SAdd ks x) = Some v' /\ inserted v p x v').
Proof.
  intros K L. unfold outcome. cbn [refused step]. unfold add_through. split.
  - intros v' E C. destruct (spot v ks) as [p|] eqn:S; [|discriminate]. exists p. destruct (spot_target v ks p S C) as [H|[_ H]]; [|rewrite H in E; discriminate]. split; auto. apply radd_inserted; auto.
  - intros p T. destruct (target_spot v ks p T L) as [S R]. rewrite S. specialize (R x). destruct (radd v p x) as [v'|] eqn:E; [|congruence]. exists v'. split; auto. apply radd_inserted; auto.
Qed.
Print Assumptions C22_step_add.
Theorem C22_step_remove v ks : vsorted v -> lists_fit v ->
  (forall v', outcome v (SRemove ks) = Some v' -> Forall canonical ks -> exists p w, locates v ks p w /\ deleted v p v') /\
  (forall p w, locates v ks p w -> in_list v p = false -> exists v', outcome v (SRemove ks) = Some v' /\ deleted v p v').
Proof.
  intros K L. unfold outcome. cbn [refused step]. split.
  - intros v' E C. destruct (route v ks) as [p|] eqn:R; [|discriminate]. destruct (in_list v p) eqn:I; [discriminate|].
    destruct (route_locates ks v p R C) as [w Lw]. exists p, w. split; auto. apply rremove_deleted; auto.
  - intros p w Lc I. destruct (locates_route _ _ _ _ Lc L) as [R A]. rewrite R, I.
    assert (H : exists v', rremove v p = Some v').
    { destruct (list_cases p) as [->|(q & e & ->)]; [eexists; reflexivity|]. rewrite rremove_last. rewrite in_list_last in I. rewrite vat_last in A.
      destruct (vat v q) as [y|] eqn:Q; [|discriminate]. destruct y, e; try discriminate. cbn [rdelete vchild] in *. rewrite A.
      clear -Q. revert v Q. generalize (VMap (mdel k m)) as z. induction q as [|e q IH]; intros z v Q; [eexists; reflexivity|]. cbn [vat] in Q. cbn [vset].
      destruct (vchild v e) as [y|] eqn:Y; [|discriminate]. destruct (IH z y Q) as (z' & ->). destruct v, e; try discriminate; cbn [vset_elem]; eauto. }
    destruct H as [v' E]. exists v'. split; auto. apply rremove_deleted; auto.
Qed.
Print Assumptions C22_step_remove.
Theorem C22_step_replace v ks x : vsorted v -> lists_fit v ->
  (forall v', outcome v (SReplace ks x) = Some v' -> Forall canonical ks -> exists p w, locates v ks p w /\ replaced v p x v') /\
  (forall p w, locates v ks p w -> exists v', outcome v (SReplace ks x) = Some v' /\ replaced v p x v').
Proof.
  intros K L. unfold outcome. cbn [refused step]. unfold rreplace. split.
  - intros v' E C. destruct (route v ks) as [p|] eqn:R; [|discriminate]. destruct (vat v p) as [w'|] eqn:A; [|discriminate].
    destruct (route_locates ks v p R C) as [w Lw]. exists p, w. split; auto. eapply vset_replaced; eauto.
  - intros p w Lc. destruct (locates_route _ _ _ _ Lc L) as [R A]. rewrite R, A.
    assert (H : exists v', vset v p x = Some v').
    { clear -A. revert v A. induction p as [|e p IH]; intros v Q; [eexists; reflexivity|]. cbn [vat] in Q. cbn [vset].
      destruct (vchild v e) as [y|] eqn:Y; [|discriminate]. destruct (IH y Q) as (z' & ->). destruct v, e; try discriminate; cbn [vset_elem]; eauto. }
    destruct H as [v' E]. exists v'. split; auto. eapply vset_replaced; eauto.
Qed.
Print Assumptions C22_step_replace.
(** A test leaves the document as it is; it succeeds when the value there compares equal. *)
Theorem C22_step_test v ks x : lists_fit v -> Forall canonical ks ->
  forall v', outcome v (STest ks x) = Some v' <-> v' = v /\ exists p w, locates v ks p w /\ vcompare w x = Ok 0%Z.
Proof.
  intros L C v'. unfold outcome. cbn [refused step]. split.
  - destruct (route v ks) as [p|] eqn:R; [|discriminate]. destruct (route_locates ks v p R C) as [w Lw]. destruct (locates_route _ _ _ _ Lw L) as [_ A]. rewrite A.
    destruct (vcompare w x) as [z| | | |] eqn:E; try discriminate. destruct (Z.eqb_spec z 0); [|discriminate]. intros H. injection H as <-. split; auto. exists p, w. subst. auto.
  - intros [-> (p & w & Lc & E)]. destruct (locates_route _ _ _ _ Lc L) as [R A]. rewrite R, A, E. reflexivity.
Qed.
Print Assumptions C22_step_test.
(** Move and copy are made of these. *)
Theorem C22_step_move v from to p w v1 : lists_fit v -> locates v from p w -> in_list v p = false -> outcome v (SRemove from) = Some v1 ->
  outcome v (SMove from (Some to)) = outcome v1 (SAdd to w).
Proof.
  intros L Lc I. destruct (locates_route _ _ _ _ Lc L) as [R A]. unfold outcome. cbn [refused step]. rewrite R, I. intros E. rewrite A, E. reflexivity.
Qed.
Print Assumptions C22_step_move.
Theorem C22_step_copy v from to p w : lists_fit v -> locates v from p w -> outcome v (SCopy from to) = outcome v (SAdd to w).
Proof. intros L Lc. destruct (locates_route _ _ _ _ Lc L) as [R A]. unfold outcome. cbn [refused step]. rewrite R, A. reflexivity. Qed.
Print Assumptions C22_step_copy.

(** ** What is not undone *)
(** Documents and patches for the examples: variable 0 is the document, 1 the patch. *)
Definition st_entry (op path : string) (x : option value) : value :=
  VMap (mset (s2b "path") (VStr (s2b path)) (mset (s2b "op") (VStr (s2b op)) match x with Some y => [(s2b "value", y)] | None => [] end)).
Definition st_from (op from path : string) : value :=
  VMap (mset (s2b "from") (VStr (s2b from)) (mset (s2b "path") (VStr (s2b path)) (mset (s2b "op") (VStr (s2b op)) []))).
Definition setup (v : value) (d : list value) : hstate :=
  match (let* c := plant v in let* x := plant (VList d) in ret (c, x)) (HState [] []) with
  | (Ok (c, x), st) => HState [c; x] (h_heap st)
  | _ => HState [] []
  end.
Definition list_doc : value := VMap [(ka, VList [VInt 1; VInt 2])].
(** An entry added in a list, or replaced in it, is not taken back: the old value is inserted instead. *)
Theorem C22_list_undo_refuted :
  (exists st st', st = setup list_doc [st_entry "add" "/a/0" (Some (VInt 9)); st_entry "remove" "/x" None] /\
     json_patch (RRef (LVar 0)) (LVar 1) st = (Ok false, st') /\ see st 0 [PKey ka; PIdx 1] = Some (ShInt 2) /\ see st' 0 [PKey ka; PIdx 1] = Some (ShInt 9)) /\
  (exists st st', st = setup list_doc [st_entry "replace" "/a/0" (Some (VInt 9)); st_entry "remove" "/x" None] /\
     json_patch (RRef (LVar 0)) (LVar 1) st = (Ok false, st') /\ see st 0 [PKey ka; PIdx 1] = Some (ShInt 2) /\ see st' 0 [PKey ka; PIdx 1] = Some (ShInt 9)).
Proof. split; do 2 eexists; (split; [reflexivity|]); (split; [vm_compute; reflexivity|]); vm_compute; auto. Qed.
Print Assumptions C22_list_undo_refuted.
(** A patch cannot remove an entry of a list. *)
Theorem C22_list_remove_refuted : exists st, st = setup list_doc [st_entry "remove" "/a/1" None] /\ json_patch (RRef (LVar 0)) (LVar 1) st = (Ok false, st).
Proof. eexists. split; [reflexivity|]. vm_compute. reflexivity. Qed.
Print Assumptions C22_list_remove_refuted.
(** An entry added behind the end of a list: undefined. *)
Theorem C22_list_behind_refuted : exists st st', st = setup list_doc [st_entry "add" "/a/3" (Some (VInt 9))] /\ json_patch (RRef (LVar 0)) (LVar 1) st = (UB, st').
Proof. do 2 eexists. split; [reflexivity|]. vm_compute. reflexivity. Qed.
Print Assumptions C22_list_behind_refuted.
(** A copied container is shared: a later step that changes the copy changes the original. *)
Theorem C22_copy_shares_refuted : exists st st', st = setup list_doc [st_from "copy" "/a" "/b"; st_entry "replace" "/b/0" (Some (VInt 9))] /\
  json_patch (RRef (LVar 0)) (LVar 1) st = (Ok true, st') /\ see st' 0 [PKey ka; PIdx 0] = Some (ShInt 9).
Proof. do 2 eexists. split; [reflexivity|]. split; vm_compute; reflexivity. Qed.
Print Assumptions C22_copy_shares_refuted.
(** Copying the document into itself makes a cycle. *)
Theorem C22_copy_cycle_refuted : exists st st' s, st = setup list_doc [st_from "copy" "" "/b"] /\
  json_patch (RRef (LVar 0)) (LVar 1) st = (Ok true, st') /\ peek st' (LVar 0) = Some (CMap s) /\ peek st' (LKey s kb) = Some (CMap s).
Proof. do 3 eexists. split; [reflexivity|]. split; [vm_compute; reflexivity|]. vm_compute. auto. Qed.
Print Assumptions C22_copy_cycle_refuted.
(** An exception leaves JSONPatch when a wrong undo meets something it does not expect: the 7 that was
    inserted is not taken out, the key does not find its map again. *)
Definition nested_doc : value := VMap [(ka, VList [VInt 5; VMap [(kb, VInt 1)]])].
Theorem C22_undo_throws_refuted : exists st st', st = setup nested_doc [st_entry "remove" "/a/1/b" None; st_entry "add" "/a/0" (Some (VInt 7)); st_entry "remove" "/x" None] /\
  json_patch (RRef (LVar 0)) (LVar 1) st = (Throw UnexpectedTypeError, st') /\ see st 0 [PKey ka] = Some (ShList 2) /\ see st' 0 [PKey ka] = Some (ShList 4).
Proof. do 2 eexists. split; [reflexivity|]. split; [vm_compute; reflexivity|]. vm_compute. auto. Qed.
Print Assumptions C22_undo_throws_refuted.
(** Applying a patch can change the patch: an added container is shared with it. *)
Theorem C22_patch_changes_refuted : exists st st', st = setup list_doc [st_entry "add" "/b" (Some (VMap [])); st_entry "add" "/b/k" (Some (VInt 1))] /\
  json_patch (RRef (LVar 0)) (LVar 1) st = (Ok true, st') /\
  see st 1 [PIdx 0; PKey (s2b "value")] = Some (ShMap []) /\ see st' 1 [PIdx 0; PKey (s2b "value")] = Some (ShMap [s2b "k"]).
Proof. do 2 eexists. split; [reflexivity|]. split; [vm_compute; reflexivity|]. vm_compute. auto. Qed.
Print Assumptions C22_patch_changes_refuted.

(** ** The hypotheses are met *)
(** Every document and every patch can be put in two variables. *)
Theorem C22_trees_exist v d : vsorted v -> vsorted d -> exists st c F cd Fd,
  tree st (LVar 0) v c F /\ tree st (LVar 1) d cd Fd /\ apart F Fd /\ outside (LVar 0) Fd /\ outside (LVar 1) F.
Proof.
  intros Kv Kd. destruct (plant_ok v Kv (HState [CNull; CNull] [])) as (c & st1 & F & E1 & X1 & O1 & N1 & Fr1).
  destruct (plant_ok d Kd st1) as (cd & st2 & G & E2 & X2 & O2 & N2 & Fr2).
  exists (HState [c; cd] (h_heap st2)), c, F, cd, G. split; [|split; [|split; [|split; exact I]]].
  - split; cbn; auto. eapply extends_owns; eauto.
  - split; cbn; auto.
  - intros s J J'. apply Fr1 in J. apply Fr2 in J'. unfold hlen in *. cbn in *. lia.
Qed.
Print Assumptions C22_trees_exist.
(** Four steps and a fifth that fails: an addition, a test, a move and a replacement. *)
Definition good_steps : list value :=
  [st_entry "add" "/b" (Some (VMap [])); st_entry "add" "/b/k" (Some (VInt 1)); st_entry "test" "/a/1" (Some (VInt 2));
   st_from "move" "/a" "/b/l"; st_entry "replace" "/b/k" (Some (VStr ka)); st_entry "add" "/b/l/-" (Some VNull)].
Example C22_demo_run : run list_doc (List.map decode good_steps) =
  Some (VMap [(kb, VMap [(s2b "k", VStr ka); (s2b "l", VList [VInt 1; VInt 2; VNull])])]).
Proof. vm_compute. reflexivity. Qed.
Example C22_demo_fails : run list_doc (List.map decode (good_steps ++ [st_entry "remove" "/a" None])) = None.
Proof. vm_compute. reflexivity. Qed.
Example C22_demo_applied : exists st', json_patch (RRef (LVar 0)) (LVar 1) (setup list_doc good_steps) = (Ok true, st') /\
  see st' 0 [] = Some (ShMap [kb]) /\ see st' 0 [PKey kb; PKey (s2b "l"); PIdx 2] = Some ShNull.
Proof. eexists. split; [vm_compute; reflexivity|]. vm_compute. auto. Qed.
Example C22_demo_undone : let st := setup list_doc (good_steps ++ [st_entry "remove" "/a" None]) in json_patch (RRef (LVar 0)) (LVar 1) st = (Ok false, st).
Proof. vm_compute. reflexivity. Qed.
(** Where a document has few paths, [lists_fit] can be computed. *)
Fixpoint fitb (v : value) : bool :=
  match v with
  | VList vs => (N.of_nat (List.length vs) <? 2^32 - 1) && forallb fitb vs
  | VMap m => forallb (fun kv => fitb (snd kv)) m
  | _ => true
  end.
Lemma fitb_sound q : forall v, fitb v = true -> forall vs, vat v q = Some (VList vs) -> N.of_nat (List.length vs) < 2^32 - 1.
Proof.
  induction q as [|e q IH]; intros v B vs A; cbn [vat] in A.
  - injection A as ->. cbn [fitb] in B. apply andb_prop in B. apply N.ltb_lt, (proj1 B).
  - destruct (vchild v e) as [y|] eqn:C; [|discriminate]. apply (IH y); auto. destruct v, e; try discriminate; cbn [fitb vchild] in *.
    + apply andb_prop in B. destruct B as [_ B]. rewrite forallb_forall in B. apply B. eapply nth_error_In; eauto.
    + rewrite forallb_forall in B. apply mget_In in C. apply (B _ C).
Qed.
Fixpoint noblobb (v : value) : bool :=
  match v with VBlob _ => false | VList vs => forallb noblobb vs | VMap m => forallb (fun kv => noblobb (snd kv)) m | _ => true end.
Lemma noblobb_sound v : noblobb v = true -> noblob v.
Proof.
  induction v as [| | | | | |vs IH|vm IH|] using value_ind'; cbn [noblobb]; intros B; try exact I; try discriminate.
  - apply noblob_VList. induction IH as [|v vs Hv Hs IHs]; cbn [noblobs]; auto. cbn [forallb] in B. apply andb_prop in B. destruct B as [B1 B2]. split; auto.
  - apply noblob_VMap. induction IH as [|v vs Hv Hs IHs]; cbn [noblobs List.map]; auto. cbn [forallb] in B. apply andb_prop in B. destruct B as [B1 B2]. split; auto.
Qed.
Definition add_fitsb (v : value) (ks : list bytes) : bool :=
  fitb v && match spot v ks with Some p => match radd v p VNull with Some _ => true | None => false end | None => true end.
Lemma add_fitsb_sound v ks : add_fitsb v ks = true -> add_fits v ks.
Proof.
  unfold add_fitsb. intros B. apply andb_prop in B. destruct B as [B R]. split; [intros q vs; apply fitb_sound, B|]. intros p S. rewrite S in R. destruct (radd v p VNull); discriminate.
Qed.
Definition admissibleb (v : value) (s : pstep) : bool :=
  match s with
  | SAdd ks _ => add_fitsb v ks
  | SMove from (Some to) => match route v from with Some p => match rremove v p with Some v1 => add_fitsb v1 to | None => true end | None => true end
  | SCopy from to => add_fitsb v to && match route v from with Some p => match vat v p with Some (VList _) | Some (VMap _) => false | _ => true end | None => true end
  | STest _ _ => noblobb v
  | _ => true
  end.
Lemma admissibleb_sound v s : admissibleb v s = true -> admissible v s.
Proof.
  destruct s as [ks x|ks|ks x|from [to|]|from to|ks x|]; cbn [admissible admissibleb]; auto using add_fitsb_sound, noblobb_sound.
  - intros B p v1 R _ M. rewrite R, M in B. apply add_fitsb_sound, B.
  - intros B. apply andb_prop in B. destruct B as [B1 B2]. split; [apply add_fitsb_sound, B1|]. intros p w R A. rewrite R, A in B2. destruct w; auto; discriminate.
Qed.
Definition add_undoableb (v : value) (ks : list bytes) : bool :=
  match spot v ks with
  | Some [] | None => true
  | Some p => match last p (PIdx 0) with
              | PKey _ => true
              | PIdx i => match vat v (removelast p) with Some (VList vs) => Nat.eqb (N.to_nat i) (List.length vs) | _ => false end
              end
  end.
Lemma add_undoableb_sound v ks : add_undoableb v ks = true -> add_undoable v ks.
Proof.
  unfold add_undoableb, add_undoable, undoable. intros B p S. rewrite S in B. destruct p; auto. destruct (last (p :: p0) (PIdx 0)); auto.
  destruct (vat v (removelast (p :: p0))) as [[]|]; try discriminate. apply Nat.eqb_eq in B. eauto.
Qed.
Definition reversibleb (v : value) (s : pstep) : bool :=
  match s with
  | SAdd ks _ => add_undoableb v ks
  | SReplace ks _ => match route v ks with Some p => negb (in_list v p) | None => true end
  | SMove from (Some to) => match route v from with Some p => match rremove v p with Some v1 => add_undoableb v1 to | None => true end | None => true end
  | SCopy _ to => add_undoableb v to
  | _ => true
  end.
Lemma reversibleb_sound v s : reversibleb v s = true -> reversible v s.
Proof.
  destruct s as [ks x|ks|ks x|from [to|]|from to|ks x|]; cbn [reversible reversibleb]; auto using add_undoableb_sound.
  - intros B p R. rewrite R in B. destruct (in_list v p); auto; discriminate.
  - intros B p v1 R M. rewrite R, M in B. apply add_undoableb_sound, B.
Qed.
Fixpoint alongb (P : value -> pstep -> bool) (v : value) (ss : list pstep) : bool :=
  match ss with [] => true | s :: t => P v s && match outcome v s with Some v' => alongb P v' t | None => true end end.
Lemma alongb_sound (P : value -> pstep -> bool) (Q : value -> pstep -> Prop) : (forall v s, P v s = true -> Q v s) -> forall ss v, alongb P v ss = true -> along Q v ss.
Proof.
  intros H ss. induction ss as [|s ss IH]; intros v B; cbn [alongb along] in *; auto. apply andb_prop in B. destruct B as [B1 B2]. split; auto. destruct (outcome v s); auto.
Qed.
Example C22_demo_hyps : let ss := List.map decode (good_steps ++ [st_entry "remove" "/a" None]) in along admissible list_doc ss /\ along reversible list_doc ss.
Proof.
  split; [apply (alongb_sound admissibleb admissible admissibleb_sound)|apply (alongb_sound reversibleb reversible reversibleb_sound)]; vm_compute; reflexivity.
Qed.
