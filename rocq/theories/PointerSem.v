(** What the operations through whole pointers do to a document that is a tree, and how they are taken back. *)
From Verif Require Import Base CNum Float Value Blob Path Numeric Convert Emit Uri Heap HeapProofs HeapSpec SharingProofs ValueOps HeapTree
  HeapErase HeapTreeFacts Pointer PointerWalk PointerOps PointerCmp.
Open Scope N_scope.

(** ** RFC 6902, section 4, on values *)
(** Adding to a container: a key is set, an entry of a list is inserted. *)
Definition rinsert (w : value) (e : pelem) (x : value) : option value :=
  match w, e with
  | VMap m, PKey k => Some (VMap (mset k x m))
  | VList vs, PIdx i => if (N.to_nat i <=? List.length vs)%nat then Some (VList (insert_at (N.to_nat i) x vs)) else None
  | _, _ => None
  end.
Definition rdelete (w : value) (e : pelem) : option value :=
  match w, e with
  | VMap m, PKey k => match mget k m with Some _ => Some (VMap (mdel k m)) | None => None end
  | VList vs, PIdx i => if (N.to_nat i <? List.length vs)%nat then Some (VList (firstn (N.to_nat i) vs ++ skipn (S (N.to_nat i)) vs)) else None
  | _, _ => None
  end.
Definition at_parent (v : value) (p : path) (f : value -> pelem -> option value) : option value :=
  match vat v (removelast p) with
  | Some w => match f w (last p (PIdx 0)) with Some w' => vset v (removelast p) w' | None => None end
  | None => None
  end.
Definition radd (v : value) (p : path) (x : value) : option value :=
  match p with [] => Some x | _ => at_parent v p (fun w e => rinsert w e x) end.
(** The library leaves null where the whole document is removed. *)
Definition rremove (v : value) (p : path) : option value :=
  match p with [] => Some VNull | _ => at_parent v p rdelete end.
Definition rreplace (v : value) (p : path) (x : value) : option value :=
  match vat v p with Some _ => vset v p x | None => None end.

(** Where an addition through the components [ks] goes: the last component need not be there, and is
    a dash for the end of a list. *)
Definition place_for (w : value) (k : bytes) : option pelem :=
  match w with
  | VMap _ => Some (PKey k)
  | VList vs =>
      if beqb k (s2b "-") then Some (PIdx (N.of_nat (List.length vs)))
      else match is_index k with Some i => Some (PIdx i) | None => None end
  | _ => None
  end.
Definition spot (v : value) (ks : list bytes) : option path :=
  match ks with
  | [] => Some []
  | _ =>
      match route v (removelast ks) with
      | Some q =>
          match vat v q with
          | Some w => match place_for w (last ks []) with Some e => Some (q ++ [e]) | None => None end
          | None => None
          end
      | None => None
      end
  end.
(** Every list has less than 2^32 - 1 entries. *)
Definition lists_fit (v : value) : Prop := forall q vs, vat v q = Some (VList vs) -> N.of_nat (List.length vs) < 2^32 - 1.
(** The last element is a key or the end of a list. *)
Definition undoable (v : value) (p : path) : Prop :=
  match p with
  | [] => True
  | _ =>
      match last p (PIdx 0) with
      | PKey _ => True
      | PIdx i => exists vs, vat v (removelast p) = Some (VList vs) /\ N.to_nat i = List.length vs
      end
  end.

Lemma spot_last v ks k : spot v (ks ++ [k]) =
  match route v ks with
  | Some q => match vat v q with Some w => match place_for w k with Some e => Some (q ++ [e]) | None => None end | None => None end
  | None => None
  end.
Proof. unfold spot. destruct (ks ++ [k]) eqn:E; [destruct ks; discriminate|]. rewrite <- E, removelast_last, last_last. reflexivity. Qed.
Lemma at_parent_last v q e f : at_parent v (q ++ [e]) f =
  match vat v q with Some w => match f w e with Some w' => vset v q w' | None => None end | None => None end.
Proof. unfold at_parent. rewrite removelast_last, last_last. reflexivity. Qed.
Lemma radd_last v q e x : radd v (q ++ [e]) x = match vat v q with Some w => match rinsert w e x with Some w' => vset v q w' | None => None end | None => None end.
Proof. unfold radd. destruct (q ++ [e]) eqn:E; [destruct q; discriminate|]. rewrite <- E. apply at_parent_last. Qed.
Lemma rremove_last v q e : rremove v (q ++ [e]) = match vat v q with Some w => match rdelete w e with Some w' => vset v q w' | None => None end | None => None end.
Proof. unfold rremove. destruct (q ++ [e]) eqn:E; [destruct q; discriminate|]. rewrite <- E. apply at_parent_last. Qed.
Lemma undoable_last v q e : undoable v (q ++ [e]) =
  match e with PKey _ => True | PIdx i => exists vs, vat v q = Some (VList vs) /\ N.to_nat i = List.length vs end.
Proof. unfold undoable. destruct (q ++ [e]) eqn:E; [destruct q; discriminate|]. rewrite <- E, removelast_last, last_last. reflexivity. Qed.
Lemma route_last ks : forall v k, route v (ks ++ [k]) =
  match route v ks with
  | Some q => match vat v q with Some w => match elem_in w k with Some e => Some (q ++ [e]) | None => None end | None => None end
  | None => None
  end.
Proof.
  induction ks as [|k0 ks IH]; intros v k; cbn [app route].
  - cbn [vat]. unfold elem_in. destruct (elem_for v k); auto. destruct (vchild v p); auto.
  - destruct (elem_for v k0) as [e|]; auto. destruct (vchild v e) as [w|] eqn:W; auto. rewrite IH.
    destruct (route w ks) as [q|]; auto. cbn [vat]. rewrite W. destruct (vat w q) as [y|]; auto. destruct (elem_in y k); auto.
Qed.
Lemma elem_in_for w k e : elem_in w k = Some e -> elem_for w k = Some e /\ exists y, vchild w e = Some y.
Proof. unfold elem_in. destruct (elem_for w k) as [e'|]; [|discriminate]. destruct (vchild w e') eqn:V; [|discriminate]. intros E; injection E as <-. eauto. Qed.
Lemma vat_last v q e : vat v (q ++ [e]) = match vat v q with Some w => vchild w e | None => None end.
Proof.
  revert v; induction q as [|e0 q IH]; intros v; cbn [app vat]; [destruct (vchild v e); auto|]. destruct (vchild v e0); auto.
Qed.
Lemma vset_last q : forall v w e x, vat v q = Some w -> vset v (q ++ [e]) x = match vset_elem w e x with Some w' => vset v q w' | None => None end.
Proof.
  induction q as [|e0 q IH]; intros v w e x A; cbn [app vset].
  - cbn in A. injection A as ->. destruct (vset_elem w e x); reflexivity.
  - cbn [vat] in A. destruct (vchild v e0) as [y|]; [|discriminate]. rewrite (IH y w e x A). destruct (vset_elem w e x); reflexivity.
Qed.
Lemma list_cases {A} (l : list A) : l = [] \/ exists m x, l = m ++ [x].
Proof. destruct l as [|a l]; [auto|]. right. destruct (@exists_last A (a :: l) ltac:(discriminate)) as (m & x & E). eauto. Qed.

(** ** Storing at a location and taking it back *)
Lemma store_back st l v c F x st' : tree st l v c F -> store l x st = (Ok tt, st') -> store l c st' = (Ok tt, st).
Proof.
  intros T E. assert (P := tr_peek _ _ _ _ _ T). destruct (store_ok st l c x P) as (st1 & E1 & V1 & H1 & L1). rewrite E in E1. injection E1 as <-.
  assert (P' : peek st' l = Some x) by (eapply peek_patched; eauto).
  destruct (store_ok st' l x c P') as (st2 & E2 & V2 & H2 & L2). rewrite E2. f_equal.
  apply hstate_ext.
  - rewrite V2, V1, patchv_patchv. apply patchv_same, P.
  - intros t. rewrite H2, H1, patch_patch. apply patch_same; apply T.
Qed.

(** ** Where a path leads *)
Lemma at_path_get q : forall l l' st, get_path q l false st = (Ok (Some l'), st) -> get_path_ref q l None st = (Ok (RRef l'), st).
Proof.
  induction q as [|e q IH]; intros l l' st; cbn [get_path get_path_ref].
  - unfold bind, ret, load. destruct (peek st l); [|discriminate]. intros E. injection E as <-. reflexivity.
  - assert (Pg := pure_get_elem l e false st). unfold bind. destruct (get_elem l e false st) as [[o| | | |] st1]; cbn in Pg; subst st1; try discriminate.
    destruct o as [l1|]; [|discriminate]. destruct q as [|e2 q].
    + intros E. injection E as <-. reflexivity.
    + apply IH.
Qed.
Lemma at_path_ref q l l' st : get_path q l false st = (Ok (Some l'), st) -> at_path (RRef l) q st = (Ok (RRef l'), st).
Proof.
  intros E. destruct q as [|e q].
  - cbn in E. unfold bind, load in E. destruct (peek st l); [|discriminate]. injection E as <-. reflexivity.
  - unfold at_path. rewrite (bind_ok _ _ _ _ _ (resolve_check_ref l st)). apply at_path_get, E.
Qed.
Lemma erase_path_get q : forall l l' e st, get_path q l false st = (Ok (Some l'), st) -> erase_path (q ++ [e]) l false st = erase_elem l' e st.
Proof.
  induction q as [|e0 q IH]; intros l l' e st.
  - cbn. unfold bind, load. destruct (peek st l); [|discriminate]. intros E. injection E as <-. reflexivity.
  - intros E. cbn [app]. rewrite erase_path_cons by (destruct q; discriminate). cbn [get_path] in E.
    assert (Pg := pure_get_elem l e0 false st). unfold bind in E. destruct (get_elem l e0 false st) as [[o| | | |] st1] eqn:G; cbn in Pg; subst st1; try discriminate.
    rewrite (bind_ok _ _ _ _ _ G). destruct o as [l1|]; [|discriminate].
    assert (Er : erase_path (q ++ [e]) l1 false st = erase_elem l' e st).
    { destruct q as [|e2 q]; [injection E as <-; reflexivity|]. apply IH, E. }
    unfold bind. rewrite Er. destruct (erase_elem l' e st) as [[[]| | | |] st1]; reflexivity.
Qed.
Lemma undo_remove_ref l p st : p <> [] -> undo_one (RRef l) (URemove p) st = erase_path p l false st.
Proof. intros N. cbn [undo_one]. destruct p as [|e p]; [congruence|]. destruct p as [|e2 p]; reflexivity. Qed.
Lemma undo_add_ref r q e c st : undo_one r (UAdd (q ++ [e]) c) st =
  (let* x := at_path r q in
   let* t := type_ref x in
   match t with
   | VList _ => match e with PIdx i => let* l := resolve_create x in let* s := as_list l in list_insert s i c | PKey _ => throw BadPathError end
   | _ => match e with PKey k => let* l := resolve_create x in set_key l k c | PIdx _ => throw BadPathError end
   end) st.
Proof.
  cbn [undo_one]. destruct (q ++ [e]) eqn:E; [destruct q; discriminate|]. rewrite <- E, removelast_last, last_last. reflexivity.
Qed.

Lemma undo_map st l q l' s m k c : get_path q l false st = (Ok (Some l'), st) -> peek st l' = Some (CMap s) ->
  nth_error (h_heap st) s = Some (StMap m) -> exists st', undo_one (RRef l) (UAdd (q ++ [PKey k]) c) st = (Ok tt, st') /\ upd st s (StMap (mset k c m)) st'.
Proof.
  intros G P X. destruct (map_set_key_ok st s m k c X) as (st' & E & U). exists st'. split; [|exact U].
  rewrite undo_add_ref, (bind_ok _ _ _ _ _ (at_path_ref _ _ _ _ G)), (bind_ok _ _ _ _ _ (type_rref _ _ _ P)). cbn [num_view].
  cbn [resolve_create]. unfold bind at 1. cbn [ret]. unfold set_key. rewrite (bind_load _ _ _ _ P). exact E.
Qed.
Lemma undo_key st l q l' s m k : get_path q l false st = (Ok (Some l'), st) -> peek st l' = Some (CMap s) ->
  nth_error (h_heap st) s = Some (StMap m) -> exists st', undo_one (RRef l) (URemove (q ++ [PKey k])) st = (Ok tt, st') /\ upd st s (StMap (mdel k m)) st'.
Proof.
  intros G P X. destruct (put_storage_upd st s (StMap (mdel k m)) _ X) as (st' & E & U). exists st'. split; [|exact U].
  rewrite undo_remove_ref by (destruct q; discriminate). rewrite (erase_path_get _ _ _ _ _ G). cbn [erase_elem]. unfold erase_key.
  rewrite (bind_load _ _ _ _ P), (bind_get_map _ _ _ _ X). exact E.
Qed.
Lemma undo_end st l q l' s cs cx : get_path q l false st = (Ok (Some l'), st) -> peek st l' = Some (CList s) ->
  nth_error (h_heap st) s = Some (StList (cs ++ [cx])) -> N.of_nat (List.length cs) < 2^32 - 1 ->
  exists st', undo_one (RRef l) (URemove (q ++ [PIdx (N.of_nat (List.length cs))])) st = (Ok tt, st') /\ upd st s (StList cs) st'.
Proof.
  intros G P X Sh. destruct (put_storage_upd st s (StList cs) _ X) as (st' & E & U). exists st'. split; [|exact U].
  rewrite undo_remove_ref by (destruct q; discriminate). rewrite (erase_path_get _ _ _ _ _ G). cbn [erase_elem]. unfold erase_index.
  rewrite (bind_load _ _ _ _ P), (bind_get_list _ _ _ _ X). unfold lsize. rewrite app_length. cbn [List.length]. unfold wrap32.
  rewrite !N.mod_small by lia. destruct (N.ltb_spec (N.of_nat (List.length cs) + 1) (N.of_nat (List.length cs + 1))); [lia|].
  destruct (N.ltb_spec (N.of_nat (List.length cs)) (N.of_nat (List.length cs + 1))); [|lia]. rewrite removelast_last. exact E.
Qed.

Lemma mget_notin {A} k (m : list (bytes * A)) : mget k m = None -> ~ In k (mkeys m).
Proof.
  induction m as [|[k' y] m IH]; cbn; [tauto|]. destruct (beqb k k') eqn:B; [discriminate|]. intros H [E|J]; [|apply IH; auto].
  subst. rewrite beqb_refl in B. discriminate.
Qed.
Lemma mdel_mset {A} k (x : A) m : msorted m -> mget k m = None -> mdel k (mset k x m) = m.
Proof.
  intros S N. apply msorted_ext; auto using msorted_mdel, msorted_mset. intros k'. rewrite mget_mdel, mget_mset by auto using msorted_mset.
  destruct (beqb k' k) eqn:B; auto. apply beqb_eq in B. congruence.
Qed.
Lemma mset_mdel {A} k (x : A) m : msorted m -> mget k m = Some x -> mset k x (mdel k m) = m.
Proof.
  intros S N. apply msorted_ext; auto using msorted_mdel, msorted_mset. intros k'. rewrite mget_mset, mget_mdel by auto using msorted_mdel.
  destruct (beqb k' k) eqn:B; auto. apply beqb_eq in B. congruence.
Qed.

(** ** Adding *)
Lemma op_add st l v c F ks x cx G : tree st l v c F -> lists_fit v -> owns (h_heap st) x cx G -> NoDup G -> apart F G -> outside l G ->
  match spot v ks with
  | None => exists e, pointer_op ks (RRef l) (PAdd cx) [] st = (Throw e, st)
  | Some p =>
      match radd v p x with
      | Some v' => exists r old st', pointer_op ks (RRef l) (PAdd cx) [] st = (Ok (OpRes r p cx old true), st') /\
          becomes st l F G st' v' /\ (undoable v p -> undo_one (RRef l) (match old with Some o => UAdd p o | None => URemove p end) st' = (Ok tt, st))
      | None => pointer_op ks (RRef l) (PAdd cx) [] st = (UB, st)
      end
  end.
Proof.
  intros T LF Ox NG AG OG. destruct (list_cases ks) as [->|(ks0 & k & ->)].
  - cbn [spot radd]. destruct (root_add st l v c F x cx G [] T Ox NG AG OG) as (st' & E & Es & B).
    exists (RRef l), (Some c), st'. split; [exact E|]. split; [exact B|]. intros _. cbn [undo_one].
    unfold write_ref. cbn [resolve_create]. unfold bind at 1. cbn [ret]. unfold assign. eapply store_back; eauto.
  - rewrite spot_last. destruct (route v ks0) as [q|] eqn:R.
    2:{ apply (lost ks0 st l v c F k (PAdd cx) [] T R). }
    destruct (route_vat _ _ _ R) as [w W]. rewrite W.
    destruct (walk q st l v c F w T W) as (l' & cw & Fw & Tw & Inc & OG' & Ep & St & Po & Up & UpT).
    rewrite (Po ks0 [k] (PAdd cx) [] R) by discriminate. cbn [app].
    assert (OGw := OG' G OG AG). assert (AGw : apart Fw G) by (intros t J; apply AG, Inc, J).
    destruct (place_for w k) as [e|] eqn:PF.
    2:{ exists RuntimeError. apply add_fails with (v := w) (c := cw) (F := Fw); auto. destruct w; auto; cbn [place_for] in PF; try discriminate.
        destruct (beqb k (s2b "-")) eqn:D; [discriminate|]. destruct (is_index k); [discriminate|]. split; auto. intros ->. discriminate. }
    rewrite radd_last, W. destruct w; try discriminate; cbn [place_for] in PF.
    + assert (Sh := LF q l0 W).
      assert (exists i, e = PIdx i /\ place k (List.length l0) i) as (i & -> & Pl).
      { unfold place. destruct (beqb k (s2b "-")) eqn:D.
        - injection PF as <-. apply beqb_eq in D. eexists; split; [reflexivity|]. right. split; auto. lia.
        - destruct (is_index k) as [i|]; [|discriminate]. injection PF as <-. eauto. }
      cbn [rinsert]. destruct (Nat.leb_spec (N.to_nat i) (List.length l0)) as [Li|Gi].
      * destruct (add_list st l' l0 cw Fw k i x cx G q Tw Ox NG AGw OGw Pl Li Sh) as (s & cs & st' & r & Ec & X & InS & Lc & E & U & B).
        destruct (Up G st' _ OG AG B) as (v' & Ev & Bv). rewrite Ev. exists r, (nthN cs i), st'. split; [exact E|]. split; [exact Bv|].
        rewrite undoable_last. intros (vs & Hv & Hi). rewrite W in Hv. injection Hv as <-.
        assert (N0 : nthN cs i = None) by (unfold nthN; apply nth_error_None; lia). rewrite N0.
        assert (Ei : i = N.of_nat (List.length cs)) by lia.
        destruct (St st' (proj1 U)) as (P1 & (cl & P2) & P3). { intros t Nt. rewrite (proj2 (proj2 U)). destruct (Nat.eqb_spec t s); [subst; tauto|auto]. }
        assert (P := tr_peek _ _ _ _ _ Tw). rewrite P, Ec in P1.
        assert (X' := upd_at _ _ _ _ U). replace (N.to_nat i) with (List.length cs) in X' by lia. rewrite insert_end in X'.
        destruct (undo_end st' l q l' s cs cx (P3 false) P1 X') as (st2 & E2 & U2); [lia|]. rewrite Ei, E2. f_equal.
        eapply upd_same; [eapply upd_upd; eauto|exact X].
      * apply add_beyond with (vs := l0) (c := cw) (F := Fw) (i := i); auto; [|lia]. destruct Pl as [H|[_ H]]; [auto|lia].
    + injection PF as <-. cbn [rinsert].
      destruct (add_map st l' m cw Fw k x cx G q Tw Ox NG AGw OGw) as (s & cm & st' & Ec & X & InS & Sm & E & U & B).
      destruct (Up G st' _ OG AG B) as (v' & Ev & Bv). rewrite Ev. exists (RRef (LKey s k)), (mget k cm), st'. split; [exact E|]. split; [exact Bv|].
      intros _. destruct (St st' (proj1 U)) as (P1 & (cl & P2) & P3). { intros t Nt. rewrite (proj2 (proj2 U)). destruct (Nat.eqb_spec t s); [subst; tauto|auto]. }
      assert (P := tr_peek _ _ _ _ _ Tw). rewrite P, Ec in P1. assert (X' := upd_at _ _ _ _ U).
      destruct (mget k cm) as [c0|] eqn:Gk.
      * destruct (undo_map st' l q l' s _ k c0 (P3 false) P1 X') as (st2 & E2 & U2). rewrite E2. f_equal.
        eapply upd_same; [eapply upd_upd; eauto|]. rewrite mset_mset, mset_same; auto.
      * destruct (undo_key st' l q l' s _ k (P3 false) P1 X') as (st2 & E2 & U2). rewrite E2. f_equal.
        eapply upd_same; [eapply upd_upd; eauto|]. rewrite mdel_mset; auto.
Qed.

(** ** Looking *)
Lemma op_get st l v c F ks : tree st l v c F ->
  match route v ks with
  | None => exists e, pointer_op ks (RRef l) PGet [] st = (Throw e, st)
  | Some p => exists l' w cw Fw, vat v p = Some w /\ tree st l' w cw Fw /\ (forall t, In t Fw -> In t F) /\ get_path p l true st = (Ok (Some l'), st) /\
      pointer_op ks (RRef l) PGet [] st = (Ok (OpRes (RRef l') p cw None true), st)
  end.
Proof.
  intros T. destruct (list_cases ks) as [->|(ks0 & k & ->)].
  - cbn [route]. exists l, v, c, F. split; [reflexivity|]. split; [exact T|]. split; [auto|]. assert (P := tr_peek _ _ _ _ _ T). split.
    + cbn [get_path]. rewrite (bind_load _ _ _ _ P). reflexivity.
    + cbn [pointer_op]. unfold root_op. rewrite (bind_ok _ _ _ _ _ (read_rref _ _ _ P)). reflexivity.
  - rewrite route_last. destruct (route v ks0) as [q|] eqn:R.
    2:{ apply (lost ks0 st l v c F k PGet [] T R). }
    destruct (route_vat _ _ _ R) as [w W]. rewrite W.
    destruct (walk q st l v c F w T W) as (l' & cw & Fw & Tw & Inc & OG' & Ep & St & Po & Up & UpT).
    rewrite (Po ks0 [k] PGet [] R) by discriminate. cbn [app]. destruct (elem_in w k) as [e|] eqn:EI.
    2:{ eapply look_fails; eauto. discriminate. }
    destruct (elem_in_for _ _ _ EI) as (EF & y & Y).
    destruct (look st l' w cw Fw k e y q Tw EF Y) as (s & cy & Fy & B & Ty & Incy & Ns & InS & E & _).
    exists (slot s e), y, cy, Fy. split; [rewrite vat_last, W; exact Y|]. split; [exact Ty|]. split; [auto|]. split; [|exact E].
    assert (V : vat v (q ++ [e]) = Some y) by (rewrite vat_last, W; exact Y).
    destruct (walk (q ++ [e]) st l v c F y T V) as (l2 & _ & _ & _ & _ & _ & Ep2 & _). rewrite (Ep2 true). f_equal. f_equal. f_equal.
    assert (G : get_path (q ++ [e]) l true st = (Ok (Some (slot s e)), st)).
    { clear -Ep B Ty Tw. assert (Pw := tr_peek _ _ _ _ _ Tw). assert (Py := tr_peek _ _ _ _ _ Ty).
      assert (Ge : get_elem l' e true st = (Ok (Some (slot s e)), st)).
      { destruct (nth_error (h_heap st) s) as [x|] eqn:X.
        - rewrite (slot_peek _ _ _ _ X) in Py. eapply get_elem_slot; eauto.
        - destruct e; cbn in Py; rewrite X in Py; discriminate. }
      specialize (Ep true). revert l Ep. induction q as [|e0 q IH]; intros l Ep.
      - cbn in Ep. unfold bind, ret, load in Ep. destruct (peek st l); [|discriminate]. injection Ep as ->. cbn [app get_path]. rewrite (bind_ok _ _ _ _ _ Ge). reflexivity.
      - cbn [app get_path] in *. unfold bind in *. assert (Pg := pure_get_elem l e0 true st).
        destruct (get_elem l e0 true st) as [[o| | | |] st1]; cbn in Pg; subst st1; try discriminate. destruct o as [l1|]; [|destruct e0; discriminate].
        destruct q as [|e1 q]; [unfold ret in Ep; injection Ep as ->; cbn [app get_path]; rewrite (bind_ok _ _ _ _ _ Ge); reflexivity|].
        cbn [app]. apply IH, Ep. }
    rewrite (Ep2 true) in G. congruence.
Qed.
Lemma op_test st l v c F ks x cx G : tree st l v c F -> owns (h_heap st) x cx G -> noblob v ->
  match route v ks with
  | None => exists e, pointer_op ks (RRef l) (PTest cx) [] st = (Throw e, st)
  | Some p => exists w r, vat v p = Some w /\
      pointer_op ks (RRef l) (PTest cx) [] st = ((do z <- vcompare w x; Ok (OpRes r p cx None (z =? 0)%Z)), st)
  end.
Proof.
  intros T Ox NB.
  assert (NBc : forall w e y, noblob w -> vchild w e = Some y -> noblob y).
  { intros w e y H E. destruct w, e; try discriminate; cbn [vchild] in E.
    - apply nth_error_In in E. apply noblob_VList in H. eapply noblobs_In; eauto.
    - apply noblob_VMap in H. apply mget_In in E. eapply noblobs_In; eauto. apply (in_map snd) in E. exact E. }
  assert (NBp : forall p w y, noblob w -> vat w p = Some y -> noblob y).
  { induction p as [|e p IH]; intros w y H E; cbn [vat] in E; [congruence|]. destruct (vchild w e) eqn:V; [|discriminate]. apply (IH v0 y); eauto. }
  assert (Cmp : forall l' w cw Fw r p, tree st l' w cw Fw -> noblob w ->
     (let* z := compare cw cx in ret (OpRes r p cx None (z =? 0)%Z)) st = ((do z <- vcompare w x; Ok (OpRes r p cx None (z =? 0)%Z)), st)).
  { intros l' w cw Fw r p Tw Nw. unfold bind. rewrite (compare_owns st w cw Fw x cx G); auto; [|apply Tw|apply Tw].
    destruct (vcompare w x); reflexivity. }
  destruct (list_cases ks) as [->|(ks0 & k & ->)].
  - cbn [route]. exists v, (RRef l). split; [reflexivity|]. assert (P := tr_peek _ _ _ _ _ T).
    cbn [pointer_op]. unfold root_op. rewrite (bind_ok _ _ _ _ _ (read_rref _ _ _ P)). eapply Cmp; eauto.
  - rewrite route_last. destruct (route v ks0) as [q|] eqn:R.
    2:{ apply (lost ks0 st l v c F k (PTest cx) [] T R). }
    destruct (route_vat _ _ _ R) as [w W]. rewrite W.
    destruct (walk q st l v c F w T W) as (l' & cw & Fw & Tw & Inc & OG' & Ep & St & Po & Up & UpT).
    rewrite (Po ks0 [k] (PTest cx) [] R) by discriminate. cbn [app]. destruct (elem_in w k) as [e|] eqn:EI.
    2:{ eapply look_fails; eauto. discriminate. }
    destruct (elem_in_for _ _ _ EI) as (EF & y & Y).
    destruct (look st l' w cw Fw k e y q Tw EF Y) as (s & cy & Fy & B & Ty & Incy & Ns & InS & _ & E).
    exists y, (RRef (slot s e)). split; [rewrite vat_last, W; exact Y|]. rewrite E. eapply Cmp; eauto.
Qed.

(** ** Removing *)
Definition in_list (v : value) (p : path) : bool :=
  match p with
  | [] => false
  | _ => match vat v (removelast p) with Some (VList _) => true | _ => false end
  end.
Lemma in_list_last v q e : in_list v (q ++ [e]) = match vat v q with Some (VList _) => true | _ => false end.
Proof. unfold in_list. destruct (q ++ [e]) eqn:E; [destruct q; discriminate|]. rewrite <- E, removelast_last. reflexivity. Qed.

Lemma op_remove st l v c F ks : tree st l v c F ->
  match route v ks with
  | None => exists e, pointer_op ks (RRef l) PRemove [] st = (Throw e, st)
  | Some p =>
      if in_list v p then exists e, pointer_op ks (RRef l) PRemove [] st = (Throw e, st)
      else exists w v' cw Fw c' F' r st', vat v p = Some w /\ rremove v p = Some v' /\
        pointer_op ks (RRef l) PRemove [] st = (Ok (OpRes r p cw None true), st') /\
        turns st l F [] st' v' c' F' /\ owns (h_heap st') w cw Fw /\ NoDup Fw /\ apart F' Fw /\ (forall t, In t Fw -> In t F) /\
        undo_one (RRef l) (UAdd p cw) st' = (Ok tt, st)
  end.
Proof.
  intros T. destruct (list_cases ks) as [->|(ks0 & k & ->)].
  - cbn [route in_list rremove]. destruct (root_remove st l v c F [] T) as (st' & E & Es & Tu & O).
    exists v, VNull, c, F, CNull, [], (RRef l), st'. split; [reflexivity|]. split; [reflexivity|]. split; [exact E|]. split; [exact Tu|].
    split; [exact O|]. split; [apply T|]. split; [intros t []|]. split; [auto|]. cbn [undo_one]. unfold write_ref. cbn [resolve_create].
    unfold bind at 1. cbn [ret]. unfold assign. eapply store_back; eauto.
  - rewrite route_last. destruct (route v ks0) as [q|] eqn:R.
    2:{ apply (lost ks0 st l v c F k PRemove [] T R). }
    destruct (route_vat _ _ _ R) as [w W]. rewrite W.
    destruct (walk q st l v c F w T W) as (l' & cw & Fw & Tw & Inc & OG' & Ep & St & Po & Up & UpT).
    rewrite (Po ks0 [k] PRemove [] R) by discriminate. cbn [app]. destruct (elem_in w k) as [e|] eqn:EI.
    2:{ eapply look_fails; eauto. discriminate. }
    destruct (elem_in_for _ _ _ EI) as (EF & y & Y). rewrite in_list_last, W.
    destruct w; try discriminate.
    + eapply remove_list; eauto.
    + cbn [elem_for] in EF. injection EF as <-. cbn [vchild] in Y.
      destruct (remove_map st l' m cw Fw k y q Tw Y) as (s & cm & cy & st' & Fy & F1 & Ec & X & InS & Sm & Gk & E & U & Tu & Oy & Oy' & Ny & Ap & Iy).
      destruct (UpT [] st' _ _ _ (outside_nil _) (apart_nil _) Tu) as (v' & c' & F' & Ev & Tv & IF').
      exists y, v', cy, Fy, c', F', (RProxy l' [PKey k]), st'. split; [rewrite vat_last, W; exact Y|]. split.
      { rewrite rremove_last, W. cbn [rdelete]. rewrite Y. exact Ev. }
      split; [exact E|]. split; [exact Tv|]. split; [exact Oy'|]. split; [exact Ny|]. split.
      { intros t J1 J2. destruct (IF' t J1) as [K|[K1 K2]]; [apply (Ap t); auto|apply K2, Iy, J2]. }
      split; [auto|].
      destruct (St st' (proj1 U)) as (P1 & (cl & P2) & P3). { intros t Nt. rewrite (proj2 (proj2 U)). destruct (Nat.eqb_spec t s); [subst; tauto|auto]. }
      assert (P := tr_peek _ _ _ _ _ Tw). rewrite P, Ec in P1. assert (X' := upd_at _ _ _ _ U).
      destruct (undo_map st' l q l' s _ k cy (P3 false) P1 X') as (st2 & E2 & U2). rewrite E2. f_equal.
      eapply upd_same; [eapply upd_upd; eauto|]. rewrite mset_mdel; auto.
Qed.

(** ** Putting something in the place of what is there *)
Lemma get_path_last q : forall l l1 l2 e ch st, get_path q l ch st = (Ok (Some l1), st) -> get_elem l1 e ch st = (Ok (Some l2), st) ->
  get_path (q ++ [e]) l ch st = (Ok (Some l2), st).
Proof.
  induction q as [|e0 q IH]; intros l l1 l2 e ch st Ep Ge.
  - cbn in Ep. unfold bind, ret, load in Ep. destruct (peek st l); [|discriminate]. injection Ep as ->. cbn [app get_path]. rewrite (bind_ok _ _ _ _ _ Ge). reflexivity.
  - cbn [app get_path] in *. unfold bind in *. assert (Pg := pure_get_elem l e0 ch st).
    destruct (get_elem l e0 ch st) as [[o| | | |] st1]; cbn in Pg; subst st1; try discriminate.
    destruct o as [l3|]; [|destruct ch; [destruct e0; discriminate|discriminate]].
    destruct q as [|e1 q]; [unfold ret in Ep; injection Ep as ->; cbn [app get_path]; rewrite (bind_ok _ _ _ _ _ Ge); reflexivity|].
    cbn [app]. apply (IH l3 l1); auto.
Qed.
Lemma set_path_get q : forall l l' c st, get_path q l false st = (Ok (Some l'), st) -> set_path q l c st = store l' c st.
Proof.
  induction q as [|e q IH]; intros l l' c st; cbn [get_path set_path].
  - unfold bind, ret, load. destruct (peek st l); [|discriminate]. intros E. injection E as <-. reflexivity.
  - assert (Pg := pure_get_elem l e false st). unfold bind. destruct (get_elem l e false st) as [[o| | | |] st1]; cbn in Pg; subst st1; try discriminate.
    destruct o as [l1|]; [|discriminate]. destruct q as [|e2 q]; [intros E; injection E as <-; reflexivity|]. apply IH.
Qed.
(** A missing key at the end of a path. *)
Lemma set_path_key q : forall l l' k c st, get_path q l false st = (Ok (Some l'), st) -> get_elem l' (PKey k) false st = (Ok None, st) ->
  set_path (q ++ [PKey k]) l c st = set_key l' k c st.
Proof.
  induction q as [|e q IH]; intros l l' k c st.
  - cbn [get_path app set_path]. unfold bind, ret, load. destruct (peek st l); [|discriminate]. intros E. injection E as <-. intros ->. reflexivity.
  - cbn [get_path app set_path]. assert (Pg := pure_get_elem l e false st). unfold bind.
    destruct (get_elem l e false st) as [[o| | | |] st1]; cbn in Pg; subst st1; try discriminate.
    destruct o as [l1|]; [|discriminate]. destruct q as [|e2 q].
    + intros E; injection E as <-. intros G. cbn [app set_path]. unfold bind. rewrite G. reflexivity.
    + intros E G. apply (IH l1 l' k c st E G).
Qed.

Lemma op_put st l v c F p w x cx G : tree st l v c F -> vat v p = Some w -> owns (h_heap st) x cx G -> NoDup G -> apart F G -> outside l G ->
  exists l' cw st' v', (forall ch, get_path p l ch st = (Ok (Some l'), st)) /\ peek st l' = Some cw /\ store l' cx st = (Ok tt, st') /\
    vset v p x = Some v' /\ becomes st l F G st' v' /\ (in_list v p = false -> undo_one (RRef l) (UAdd p cw) st' = (Ok tt, st)).
Proof.
  intros T A Ox NG AG OG. destruct (walk p st l v c F w T A) as (l' & cw & Fw & Tw & Inc & OG' & Ep & St & Po & Up & UpT).
  assert (OGw := OG' G OG AG). assert (AGw : apart Fw G) by (intros t J; apply AG, Inc, J).
  destruct (set_path_tree [] st l' w cw Fw x cx G Tw (Forall_nil _) Ox NG AGw OGw) as (st' & E & B).
  destruct (Up G st' x OG AG B) as (v' & Ev & Bv). exists l', cw, st', v'. split; [exact Ep|]. split; [apply Tw|]. split; [exact E|].
  split; [exact Ev|]. split; [exact Bv|]. intros NL. destruct (list_cases p) as [->|(q & e & ->)].
  - cbn [undo_one]. assert (l' = l) as ->. { specialize (Ep false). cbn in Ep. unfold bind, ret, load in Ep. destruct (peek st l); [|discriminate]. congruence. }
    unfold write_ref. cbn [resolve_create]. unfold bind at 1. cbn [ret]. unfold assign. eapply store_back; eauto.
  - rewrite in_list_last in NL. rewrite vat_last in A. destruct (vat v q) as [y|] eqn:Q; [|discriminate].
    destruct (walk q st l v c F y T Q) as (l1 & c1 & F1 & T1 & Inc1 & OG1 & Ep1 & St1 & Po1 & _).
    destruct y; try discriminate; destruct e as [k|i]; try discriminate.
    destruct (descend_slot st l1 (VMap m) c1 F1 (PKey k) w T1 A) as (s & xs & cw1 & Fw1 & B1 & X & Gs & InS & _ & Tw1 & _).
    assert (El : l' = LKey s k).
    { assert (H := get_path_last q l l1 (LKey s k) (PKey k) false st (Ep1 false)). rewrite (Ep false) in H.
      assert (H' : get_elem l1 (PKey k) false st = (Ok (Some (LKey s k)), st)) by (eapply (get_elem_slot st l1 c1 (PKey k)); eauto; apply T1).
      specialize (H H'). congruence. }
    subst l'. assert (O1 := tr_owns _ _ _ _ _ T1). destruct c1; try (exfalso; exact O1). injection B1 as ->.
    apply owns_VMap in O1. destruct O1 as (cm & Fs & X' & _ & Sv & Sk & _). rewrite X in X'. injection X' as ->. cbn [slot_get] in Gs.
    assert (Sm := msorted_keys _ _ Sk Sv).
    assert (cw = cw1) as ->. { assert (H := tr_peek _ _ _ _ _ Tw). cbn [peek] in H. rewrite X in H. congruence. }
    assert (U : upd st s (StMap (mset k cx cm)) st').
    { assert (Pw := tr_peek _ _ _ _ _ Tw). destruct (store_ok st (LKey s k) cw1 cx Pw) as (st1 & E1 & V1 & H1 & L1).
      cbn [set_path] in E. unfold assign in E. rewrite E in E1. injection E1 as <-. split; [exact V1|]. split; [exact L1|].
      intros t. rewrite H1. cbn [patch]. destruct (Nat.eqb_spec t s) as [->|Nt]; [rewrite X; reflexivity|]. destruct (nth_error (h_heap st) t) as [[]|]; reflexivity. }
    destruct (St1 st' (proj1 U)) as (P1 & (cl & P2) & P3). { intros t Nt. rewrite (proj2 (proj2 U)). destruct (Nat.eqb_spec t s); [subst; tauto|auto]. }
    assert (P := tr_peek _ _ _ _ _ T1). rewrite P in P1. assert (X' := upd_at _ _ _ _ U).
    destruct (undo_map st' l q l1 s _ k cw1 (P3 false) P1 X') as (st2 & E2 & U2). rewrite E2. f_equal.
    eapply upd_same; [eapply upd_upd; eauto|]. rewrite mset_mset, mset_same; auto.
Qed.

(** ** Steps one after the other *)
Lemma turns_weak st l F G D st' v' c' F' : turns st l F G st' v' c' F' -> (forall t, In t F -> In t D) -> (forall t, In t G -> In t D) ->
  turns st l D [] st' v' c' F'.
Proof.
  intros (T & I & V & N & L) HF HG. split; [exact T|]. repeat split; auto.
  intros s J. destruct (I s J) as [|[|]]; auto.
Qed.
Lemma turns_in st l D st1 v1 c1 F1 G st2 v2 c2 F2 : turns st l D [] st1 v1 c1 F1 -> (forall t, In t G -> In t D) ->
  turns st1 l F1 G st2 v2 c2 F2 -> turns st l D [] st2 v2 c2 F2.
Proof.
  intros (T1 & I1 & V1 & N1 & L1) HG (T2 & I2 & V2 & N2 & L2). split; [exact T2|]. repeat split; try lia.
  - intros s J. destruct (I2 _ J) as [J'|[J'|J']]; [|left; auto|right; right; lia]. destruct (I1 _ J') as [|[[]|]]; auto.
  - rewrite V2, V1. apply patchv_patchv.
  - intros s Hs NF. rewrite N2; [|lia|]. rewrite N1; auto. apply patch_patch.
    intros J. destruct (I1 _ J) as [|[[]|]]; auto; lia.
Qed.
Lemma vcompare_ok w : noblob w -> forall x, exists z, vcompare w x = Ok z.
Proof.
  assert (NC : forall a b, is_num (type_of a) = true -> exists z, num_compare a b = Ok z).
  { intros a b Na. unfold num_compare. destruct (comparable a b) eqn:C; [|eauto]. destruct a, b; try discriminate; cbn; eauto. }
  induction w as [|b|z|n|f|b|vs IH|vm IH|b] using value_ind'; intros NB x; cbn [vcompare]; eauto.
  - destruct x; eauto. destruct (List.length vs =? List.length l)%nat; eauto. apply noblob_VList in NB.
    match goal with |- exists z, rbind ?e _ = Ok z => assert (H : exists b, e = Ok b) end.
    { revert l. induction IH as [|v vs Hv Hvs IHl]; intros [|y l]; eauto. destruct NB as [N1 N2].
      destruct (Hv N1 y) as (z & ->). cbn [rbind]. destruct (z =? 0)%Z; eauto. }
    destruct H as (b & ->). cbn [rbind]. eauto.
  - destruct x; eauto. destruct (List.length vm =? List.length m)%nat; eauto. apply noblob_VMap in NB.
    match goal with |- exists z, rbind ?e _ = Ok z => assert (H : exists b, e = Ok b) end.
    { revert m. induction IH as [|[k v] vs Hv Hvs IHl]; intros [|[k' y] l]; eauto. destruct NB as [N1 N2]. cbn [snd] in Hv, N1.
      destruct (beqb k k'); eauto. destruct (Hv N1 y) as (z & ->). cbn [rbind]. destruct (z =? 0)%Z; eauto. }
    destruct H as (b & ->). cbn [rbind]. eauto.
  - destruct NB.
Qed.
