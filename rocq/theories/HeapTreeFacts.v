(** More about trees: every value can be built, lookups, everything else in the program stays,
    and the different ways to write an assignment. *)
From Verif Require Import Base Float Value Blob Path Numeric Heap HeapProofs HeapSpec ValueOps HeapTree.
Open Scope N_scope.

(** Building a value from new storages. *)
Fixpoint plant (v : value) : M cell :=
  match v with
  | VNull => ret CNull | VBool b => ret (CBool b) | VInt z => ret (CInt z) | VUns n => ret (CUns n) | VFlt x => ret (CFlt x)
  | VStr b => let* n := alloc (StStr b) in ret (CStr n)
  | VBlob b => let* n := alloc (StBlob b) in ret (CBlob (Some n))
  | VList vs =>
      let* cs := (fix go vs := match vs with
                               | [] => ret []
                               | v :: t => let* c := plant v in let* r := go t in ret (c :: r)
                               end) vs in
      let* n := alloc (StList cs) in ret (CList n)
  | VMap vm =>
      let* cm := (fix go vm := match vm with
                               | [] => ret []
                               | kv :: t => let* c := plant (snd kv) in let* r := go t in ret ((fst kv, c) :: r)
                               end) vm in
      let* n := alloc (StMap cm) in ret (CMap n)
  end.
Fixpoint plant_list (vs : list value) : M (list cell) :=
  match vs with [] => ret [] | v :: t => let* c := plant v in let* r := plant_list t in ret (c :: r) end.
Fixpoint plant_map (vm : list (bytes * value)) : M (list (bytes * cell)) :=
  match vm with [] => ret [] | kv :: t => let* c := plant (snd kv) in let* r := plant_map t in ret ((fst kv, c) :: r) end.
Lemma plant_VList vs : plant (VList vs) = (let* cs := plant_list vs in let* n := alloc (StList cs) in ret (CList n)).
Proof. reflexivity. Qed.
Lemma plant_VMap vm : plant (VMap vm) = (let* cm := plant_map vm in let* n := alloc (StMap cm) in ret (CMap n)).
Proof. reflexivity. Qed.

Definition extends (st st' : hstate) : Prop := h_vars st' = h_vars st /\ exists new, h_heap st' = h_heap st ++ new.
Lemma extends_refl st : extends st st. Proof. split; auto. exists []. rewrite app_nil_r. auto. Qed.
Lemma extends_trans a b c : extends a b -> extends b c -> extends a c.
Proof. intros [V1 [n1 H1]] [V2 [n2 H2]]. split; [congruence|]. exists (n1 ++ n2). rewrite H2, H1, app_assoc. auto. Qed.
Lemma extends_len a b : extends a b -> (hlen a <= hlen b)%nat.
Proof. intros [_ [n H]]. unfold hlen. rewrite H, app_length. lia. Qed.
Lemma extends_nth a b s : extends a b -> (s < hlen a)%nat -> nth_error (h_heap b) s = nth_error (h_heap a) s.
Proof. intros [_ [n H]] L. rewrite H. apply nth_error_app1, L. Qed.
Lemma extends_nth' a b s x : extends a b -> nth_error (h_heap a) s = Some x -> nth_error (h_heap b) s = Some x.
Proof. intros E H. rewrite (extends_nth _ _ _ E); auto. unfold hlen. apply nth_error_Some. congruence. Qed.
Lemma extends_owns a b v c F : extends a b -> owns (h_heap a) v c F -> owns (h_heap b) v c F.
Proof.
  intros E O. eapply owns_frame; [| |exact O].
  - intros s x Ex _. eapply extends_nth'; eauto.
  - intros s J. apply extends_nth; auto. unfold hlen. eapply owns_lt; eauto.
Qed.
Lemma extends_owns_list a b vs cs Fs : extends a b -> owns_list (h_heap a) vs cs Fs -> owns_list (h_heap b) vs cs Fs.
Proof. intros E. revert cs Fs; induction vs as [|v vs IH]; intros [|c cs] [|f Fs]; cbn [owns_list]; auto. intros [A B]. split; eauto using extends_owns. Qed.
Lemma extends_peek a b l c : extends a b -> peek a l = Some c -> peek b l = Some c.
Proof.
  intros E P. destruct l as [x|s i|s k]; cbn [peek] in *.
  - destruct E as [-> _]. exact P.
  - destruct (nth_error (h_heap a) s) eqn:X; [|discriminate]. rewrite (extends_nth' _ _ _ _ E X). exact P.
  - destruct (nth_error (h_heap a) s) eqn:X; [|discriminate]. rewrite (extends_nth' _ _ _ _ E X). exact P.
Qed.
Lemma extends_tree a b l v c F : extends a b -> tree a l v c F -> tree b l v c F.
Proof.
  intros E [P O ND OL LS]. split; auto.
  - eapply extends_peek; eauto.
  - eapply extends_owns; eauto.
  - destruct l; cbn in *; auto. destruct (nth_error (h_heap a) s) eqn:X; [|discriminate].
    intros m. rewrite (extends_nth' _ _ _ _ E X). intros H. injection H as ->. auto.
Qed.
Lemma alloc_ok x st : exists st', alloc x st = (Ok (hlen st), st') /\ extends st st' /\ nth_error (h_heap st') (hlen st) = Some x /\ hlen st' = S (hlen st).
Proof.
  eexists. split; [reflexivity|]. split; [split; [reflexivity|exists [x]; reflexivity]|]. cbn. unfold hlen. split.
  - rewrite nth_error_app2, Nat.sub_diag by lia. reflexivity.
  - cbn. rewrite app_length. cbn. lia.
Qed.

Definition fresh_in (st st' : hstate) (F : list nat) : Prop := forall s, In s F -> (hlen st <= s < hlen st')%nat.
Lemma plant_list_ok vs : Forall (fun v => vsorted v -> forall st, exists c st' F, plant v st = (Ok c, st') /\ extends st st' /\
    owns (h_heap st') v c F /\ NoDup F /\ fresh_in st st' F) vs -> Forall vsorted vs ->
  forall st, exists cs st' Fs, plant_list vs st = (Ok cs, st') /\ extends st st' /\ owns_list (h_heap st') vs cs Fs /\
    NoDup (List.concat Fs) /\ fresh_in st st' (List.concat Fs).
Proof.
  induction 1 as [|v vs Hv P IH]; intros S st.
  - exists [], st, []. split; [reflexivity|]. split; [apply extends_refl|]. split; [exact I|]. split; [constructor|intros s []].
  - inversion_clear S. destruct (Hv H st) as (c & st1 & F & E1 & X1 & O1 & N1 & R1).
    destruct (IH H0 st1) as (cs & st2 & Fs & E2 & X2 & O2 & N2 & R2).
    exists (c :: cs), st2, (F :: Fs). cbn [plant_list]. rewrite (bind_ok _ _ _ _ _ E1), (bind_ok _ _ _ _ _ E2).
    assert (L1 := extends_len _ _ X1). assert (L2 := extends_len _ _ X2).
    split; [reflexivity|]. split; [eapply extends_trans; eauto|]. split; [split; [eapply extends_owns; eauto|auto]|]. cbn. split.
    + apply nodup_app. repeat split; auto. intros s I J. specialize (R1 _ I). specialize (R2 _ J). lia.
    + intros s J. apply in_app_or in J. destruct J as [J|J]; [specialize (R1 _ J)|specialize (R2 _ J)]; lia.
Qed.
Lemma plant_map_list vm : forall st, plant_map vm st =
  match plant_list (List.map snd vm) st with
  | (Ok cs, st') => (Ok (combine (List.map fst vm) cs), st')
  | (Throw e, st') => (Throw e, st') | (UB, st') => (UB, st') | (Abort, st') => (Abort, st') | (Fuel, st') => (Fuel, st')
  end.
Proof.
  induction vm as [|[k v] vm IH]; intros st; [reflexivity|]. cbn [plant_map plant_list List.map fst snd]. unfold bind.
  destruct (plant v st) as [[c| | | |] st1]; auto. rewrite IH. destruct (plant_list (List.map snd vm) st1) as [[cs| | | |] st2]; reflexivity.
Qed.
(** Every value can be built: its tree has storages of its own. *)
Lemma plant_ok v : vsorted v -> forall st, exists c st' F, plant v st = (Ok c, st') /\ extends st st' /\
    owns (h_heap st') v c F /\ NoDup F /\ fresh_in st st' F.
Proof.
  induction v as [| b | z | n | x | b |vs IH|vm IH| b] using value_ind'; intros S st.
  1-5: eexists _, st, []; split; [reflexivity|]; split; [apply extends_refl|]; split; [cbn; auto|]; split; [constructor|intros s []].
  - destruct (alloc_ok (StStr b) st) as (st' & E & X & H & HL). exists (CStr (hlen st)), st', []. cbn [plant]. rewrite (bind_ok _ _ _ _ _ E).
    split; [reflexivity|]; split; [exact X|]; split; [split; auto|]; split; [constructor|intros s []].
  - apply vsorted_list in S. destruct (plant_list_ok vs IH S st) as (cs & st1 & Fs & E1 & X1 & O1 & N1 & R1).
    destruct (alloc_ok (StList cs) st1) as (st2 & E2 & X2 & H2 & HL2). exists (CList (hlen st1)), st2, (hlen st1 :: List.concat Fs).
    rewrite plant_VList, (bind_ok _ _ _ _ _ E1), (bind_ok _ _ _ _ _ E2). assert (L1 := extends_len _ _ X1).
    split; [reflexivity|]. split; [eapply extends_trans; eauto|]. split.
    { apply owns_VList. exists cs, Fs. split; auto. split; auto. eapply extends_owns_list; eauto. }
    split.
    + constructor; auto. intros J. specialize (R1 _ J). lia.
    + intros s [<-|J]; [lia|]. specialize (R1 _ J). lia.
  - apply vsorted_map in S. destruct S as [S1 S2].
    assert (P1 : Forall (fun v => vsorted v -> forall st, exists c st' F, plant v st = (Ok c, st') /\ extends st st' /\
      owns (h_heap st') v c F /\ NoDup F /\ fresh_in st st' F) (List.map snd vm)).
    { rewrite Forall_forall in *. intros v J. apply in_map_iff in J. destruct J as (kv & <- & J). apply (IH _ J). }
    assert (P2 : Forall vsorted (List.map snd vm)).
    { rewrite Forall_forall in *. intros v J. apply in_map_iff in J. destruct J as (kv & <- & J). apply (S2 _ J). }
    destruct (plant_list_ok _ P1 P2 st) as (cs & st1 & Fs & E1 & X1 & O1 & N1 & R1).
    set (cm := combine (List.map fst vm) cs). assert (Lc := owns_list_length _ _ _ _ O1). rewrite map_length in Lc.
    assert (K1 : List.map fst cm = List.map fst vm /\ List.map snd cm = cs).
    { unfold cm. clear -Lc. revert cs Lc. induction vm as [|[k v] vm IH]; intros [|c cs] L; try discriminate; cbn; auto.
      destruct (IH cs) as [-> ->]; auto. }
    destruct K1 as [K1 K2].
    destruct (alloc_ok (StMap cm) st1) as (st2 & E2 & X2 & H2 & HL2). exists (CMap (hlen st1)), st2, (hlen st1 :: List.concat Fs).
    rewrite plant_VMap. assert (E0 : plant_map vm st = (Ok cm, st1)) by (rewrite plant_map_list, E1; reflexivity).
    rewrite (bind_ok _ _ _ _ _ E0), (bind_ok _ _ _ _ _ E2). assert (L1 := extends_len _ _ X1).
    split; [reflexivity|]. split; [eapply extends_trans; eauto|]. split.
    { apply owns_VMap. exists cm, Fs. repeat split; auto. rewrite K2. eapply extends_owns_list; eauto. }
    split.
    + constructor; auto. intros J. specialize (R1 _ J). lia.
    + intros s [<-|J]; [lia|]. specialize (R1 _ J). lia.
  - destruct (alloc_ok (StBlob b) st) as (st' & E & X & H & HL). exists (CBlob (Some (hlen st))), st', []. cbn [plant]. rewrite (bind_ok _ _ _ _ _ E).
    split; [reflexivity|]; split; [exact X|]; split; [split; auto|]; split; [constructor|intros s []].
Qed.

(** A lookup in a tree. *)
Lemma get_path_tree p : forall st l v c F, tree st l v c F ->
  match vat v p with
  | Some w => exists l' cw Fw, get_path p l false st = (Ok (Some l'), st) /\ tree st l' w cw Fw /\ (forall s, In s Fw -> In s F)
  | None => get_path p l false st = (Ok None, st)
  end.
Proof.
  induction p as [|e p IH]; intros st l v c F T; cbn [vat get_path].
  - exists l, c, F. rewrite (bind_load _ _ _ _ (tr_peek _ _ _ _ _ T)). auto.
  - destruct (vchild v e) as [w|] eqn:W.
    + destruct (descend st l v c F e w T W) as (l' & cw & Fw & Eg & Tw & Inc & _).
      rewrite (bind_ok _ _ _ _ _ (Eg false)). destruct p as [|e2 p].
      * cbn [vat]. exists l', cw, Fw. auto.
      * specialize (IH st l' w cw Fw Tw). destruct (vat w (e2 :: p)); auto. destruct IH as (l2 & c2 & F2 & H1 & H2 & H3). exists l2, c2, F2. auto.
    + rewrite (bind_ok _ _ _ _ _ (get_elem_none _ _ _ _ _ _ (tr_peek _ _ _ _ _ T) (tr_owns _ _ _ _ _ T) W)). reflexivity.
Qed.

(** Everything else in the program stays. *)
Lemma elsewhere st l v c F G st' v' : tree st l v c F -> becomes st l F G st' v' ->
  forall l2 d, l2 <> l -> peek st l2 = Some d -> outside l2 F -> peek st' l2 = Some d.
Proof.
  intros [P O ND OL LS] (c' & F' & T' & I & V & N & L) l2 d Ne P2 O2.
  destruct l2 as [x|s i|s k]; cbn [peek outside] in *.
  - rewrite V. destruct l; cbn; auto. rewrite nth_lput. destruct (Nat.eqb_spec x x0); auto. subst. congruence.
  - destruct (nth_error (h_heap st) s) as [[|cs| |]|] eqn:X; try discriminate.
    rewrite N by (auto; unfold hlen; apply nth_error_Some; congruence). rewrite X. destruct l as [|s' i'|]; cbn; auto.
    destruct (Nat.eqb_spec s s'); auto. unfold nthN in *. rewrite nth_lput. destruct (Nat.eqb_spec (N.to_nat i) (N.to_nat i')); auto.
    destruct Ne. subst. f_equal. lia.
  - destruct (nth_error (h_heap st) s) as [[| |m|]|] eqn:X; try discriminate.
    rewrite N by (auto; unfold hlen; apply nth_error_Some; congruence). rewrite X. destruct l as [| |s' k']; cbn; auto.
    destruct (Nat.eqb_spec s s'); auto. subst. cbn in LS. rewrite mget_mset by eauto. destruct (beqb k k') eqn:B; auto.
    apply beqb_eq in B. congruence.
Qed.

(** ** v.AtPath(p) = c, v[a][b] = c and v.SetPath(p, c) are the same *)
Lemma store_store l c0 c st : (store l c0;; store l c) st = store l c st.
Proof.
  destruct (peek st l) as [d|] eqn:P; [|unfold bind, store; rewrite P; reflexivity].
  destruct (store_ok st l d c0 P) as (st1 & E1 & V1 & H1 & HL1). rewrite (bind_ok _ _ _ _ _ E1).
  assert (P1 : peek st1 l = Some c0) by (eapply peek_patched; eauto).
  unfold store in *. rewrite P in *. rewrite P1. injection E1 as <-. f_equal.
  destruct l as [x|s i|s k]; cbn [peek h_vars h_heap with_heap] in *.
  - rewrite lput_lput. reflexivity.
  - destruct (nth_error (h_heap st) s) as [[|cs| |]|] eqn:X; try discriminate. cbn [h_heap with_heap h_vars]. rewrite nth_lput, Nat.eqb_refl, X.
    unfold with_heap. cbn. rewrite !lput_lput. reflexivity.
  - destruct (nth_error (h_heap st) s) as [[| |m|]|] eqn:X; try discriminate. cbn [h_heap with_heap h_vars]. rewrite nth_lput, Nat.eqb_refl, X.
    unfold with_heap. cbn. rewrite lput_lput, mset_mset. reflexivity.
Qed.
Lemma bind_ext {A B} (m : M A) (f g : A -> M B) st : (forall a st1, f a st1 = g a st1) -> bind m f st = bind m g st.
Proof. intros H. unfold bind. destruct (m st) as [[]]; auto. Qed.
Lemma bind_assoc2 {A B C} (m : M A) (f : A -> M B) (g : B -> M C) st : bind (bind m f) g st = bind m (fun a => bind (f a) g) st.
Proof. apply bind_assoc. Qed.

Definition assign_ref (c : cell) (r : vref) : M unit :=
  match r with RRef l => assign c l | RProxy _ _ => fail Fuel end.
Lemma get_map_bad {B} (f : list (bytes * cell) -> M B) st s : (forall m, nth_error (h_heap st) s <> Some (StMap m)) -> bind (get_map s) f st = (UB, st).
Proof. intros H. unfold get_map, get_storage, bind. destruct (nth_error (h_heap st) s) as [[]|] eqn:E; try reflexivity. destruct (H m eq_refl). Qed.
Lemma get_list_bad {B} (f : list cell -> M B) st s : (forall m, nth_error (h_heap st) s <> Some (StList m)) -> bind (get_list s) f st = (UB, st).
Proof. intros H. unfold get_list, get_storage, bind. destruct (nth_error (h_heap st) s) as [[]|] eqn:E; try reflexivity. destruct (H l eq_refl). Qed.
Lemma bind_ub {A B} (m : M A) (f : A -> M B) st st1 : m st = (UB, st1) -> bind m f st = (UB, st1).
Proof. intros E. unfold bind. rewrite E. reflexivity. Qed.

Lemma ref_elem_assign l e c st : (let* r := get_ref_elem l e (Some CNull) in assign_ref c r) st = set_elem l e c st.
Proof.
  assert (ML : forall s k st0, (let* r := map_get_ref l s k (Some CNull) in assign_ref c r) st0 = map_set_key s k c st0).
  { intros s k st0. unfold map_get_ref, map_set_key, map_insert. rewrite !bind_assoc.
    destruct (nth_error (h_heap st0) s) as [[| |m|]|] eqn:E; try (rewrite !get_map_bad by congruence; reflexivity).
    rewrite !(bind_get_map _ _ _ _ E). destruct (mget k m) eqn:G; [reflexivity|]. rewrite !bind_assoc. rewrite (bind_get_map _ _ _ _ E), G.
    unfold bind. destruct (put_storage s (StMap (mset k CNull m)) st0) as [[]]; reflexivity. }
  assert (LL : forall s i st0, (let* r := list_get_ref l s i (Some CNull) in assign_ref c r) st0 = list_set_index s i c st0).
  { intros s i st0. unfold list_get_ref, list_set_index. rewrite !bind_assoc.
    destruct (nth_error (h_heap st0) s) as [[|cs| |]|] eqn:E; try (rewrite !get_list_bad by congruence; reflexivity).
    rewrite !(bind_get_list _ _ _ _ E). destruct (i <? lsize cs) eqn:L.
    - rewrite (bind_ok (ret tt) _ st0 tt st0 eq_refl). unfold list_at. rewrite bind_assoc, (bind_get_list _ _ _ _ E), L. reflexivity.
    - rewrite !bind_assoc. apply bind_ext. intros _ st1. rewrite !bind_assoc. apply bind_ext. intros e' st2. unfold assign.
      rewrite bind_assoc. rewrite <- (store_store e' CNull c st2). apply bind_ext. reflexivity. }
  destruct e as [k|i]; cbn [get_ref_elem set_elem]; [unfold get_ref_key, set_key|unfold get_ref_index, set_index]; rewrite bind_assoc; apply bind_ext;
    intros c0 st1; destruct c0; try reflexivity.
  - rewrite !bind_assoc. apply bind_ext. intros s st2. rewrite !bind_assoc. apply bind_ext. intros _ st3. apply ML.
  - apply ML.
  - rewrite !bind_assoc. apply bind_ext. intros s st2. rewrite !bind_assoc. apply bind_ext. intros _ st3. apply LL.
  - apply LL.
Qed.

Lemma create_assign p : forall l c st, (let* r := get_path_ref p l (Some CNull) in assign_ref c r) st = set_path p l c st.
Proof.
  induction p as [|e p IH]; intros l c st; [reflexivity|]. cbn [get_path_ref set_path]. rewrite bind_assoc. apply bind_ext.
  intros [l'|] st1.
  - destruct p; [reflexivity|]. apply IH.
  - destruct p as [|e2 p]; [apply ref_elem_assign|]. rewrite bind_assoc. apply bind_ext. intros _ st2. rewrite bind_assoc. apply bind_ext.
    intros [l'|] st3; [apply IH|reflexivity].
Qed.
(** The target of an assignment through a reference. *)
Definition set_ref (r : vref) (c : cell) : M unit := let* l := resolve_create r in assign c l.
Lemma set_ref_proxy l p c st : set_ref (RProxy l p) c st = set_path p l c st.
Proof.
  unfold set_ref. cbn [resolve_create]. rewrite bind_assoc, <- create_assign. apply bind_ext. intros [l'|l' q] st1; reflexivity.
Qed.
Lemma path_ref_assign p : forall l c st, (let* r := get_path_ref p l None in set_ref r c) st = set_path p l c st.
Proof.
  induction p as [|e p IH]; intros l c st; [reflexivity|]. cbn [get_path_ref]. rewrite bind_assoc.
  assert (PU := pure_get_elem l e false st). destruct (get_elem l e false st) as [[[l'|]| | | |] st1] eqn:E; cbn in PU; subst st1.
  - rewrite (bind_ok _ _ _ _ _ E). cbn [set_path]. rewrite (bind_ok _ _ _ _ _ E). destruct p; [reflexivity|apply IH].
  - rewrite (bind_ok _ _ _ _ _ E). change (set_ref (RProxy l (e :: p)) c st = set_path (e :: p) l c st). apply set_ref_proxy.
  - cbn [set_path]. rewrite !(bind_throw _ _ _ _ _ E). reflexivity.
  - cbn [set_path]. rewrite !(bind_ub _ _ _ _ E). reflexivity.
  - cbn [set_path]. unfold bind. rewrite E. reflexivity.
  - cbn [set_path]. unfold bind. rewrite E. reflexivity.
Qed.
Lemma exec_assign_path x p r st : exec (OAssign (LV x p) r) st = (let* c := eval_rval r in set_path p (LVar x) c) st.
Proof.
  cbn [exec]. apply bind_ext. intros c st1. unfold target_create, eval_lval. cbn [lv_var lv_path]. rewrite bind_assoc.
  destruct p as [|e p]; [reflexivity|]. cbn [at_path]. cbn [resolve_check].
  rewrite bind_assoc, (bind_ok (ret (Some (LVar x))) _ st1 (Some (LVar x)) st1 eq_refl). apply path_ref_assign.
Qed.
(** operator[] several times over. *)
Lemma get_path_more q e : forall l st, get_path q l false st = (Ok None, st) -> get_path (q ++ [e]) l false st = (Ok None, st).
Proof.
  induction q as [|f q IH]; intros l st.
  - cbn [get_path]. unfold load, bind. destruct (peek st l); discriminate.
  - cbn [get_path app]. assert (PU := pure_get_elem l f false st). destruct (get_elem l f false st) as [[[l'|]| | | |] st1] eqn:E; cbn in PU; subst st1;
      try (rewrite !(bind_ok _ _ _ _ _ E); auto; fail); try (unfold bind; rewrite E; discriminate).
    rewrite !(bind_ok _ _ _ _ _ E). destruct q; [discriminate|apply IH].
Qed.
Fixpoint chain (r : vref) (es : path) : M vref :=
  match es with [] => ret r | e :: t => let* r' := at_elem r e in chain r' t end.
Lemma chain_assign es : forall l c st, wf st -> peek st l <> None ->
  (let* r := chain (RRef l) es in set_ref r c) st = set_path es l c st.
Proof.
  assert (PX : forall es l q c st, get_path q l false st = (Ok None, st) ->
    (let* r := chain (RProxy l q) es in set_ref r c) st = set_path (q ++ es) l c st).
  { clear es. induction es as [|e es IH]; intros l q c st G; cbn [chain].
    - rewrite app_nil_r. rewrite <- set_ref_proxy. reflexivity.
    - rewrite bind_assoc. unfold at_elem. cbn [resolve_check]. rewrite bind_assoc, (bind_ok _ _ _ _ _ G).
      rewrite (bind_ok (ret (RProxy l (q ++ [e]))) _ st _ st eq_refl). rewrite IH by (apply get_path_more, G). rewrite <- app_assoc. reflexivity. }
  induction es as [|e es IH]; intros l c st W P; [reflexivity|]. cbn [chain]. rewrite bind_assoc. unfold at_elem. cbn [resolve_check].
  rewrite bind_assoc, (bind_ok (ret (Some l)) _ st (Some l) st eq_refl). destruct (peek st l) as [d|] eqn:Pd; [|congruence]. clear P.
  assert (I := wf_peek _ _ _ W Pd).
  assert (Here : forall l', peek st l' <> None -> get_elem l e false st = (Ok (Some l'), st) -> get_ref_elem l e None st = (Ok (RRef l'), st) ->
    (let* r := get_ref_elem l e None in let* r0 := chain r es in set_ref r0 c) st = set_path (e :: es) l c st).
  { intros l' P' G R. rewrite (bind_ok _ _ _ _ _ R), IH by auto. cbn [set_path]. rewrite (bind_ok _ _ _ _ _ G). reflexivity. }
  assert (Miss : get_elem l e false st = (Ok None, st) -> get_ref_elem l e None st = (Ok (RProxy l [e]), st) ->
    (let* r := get_ref_elem l e None in let* r0 := chain r es in set_ref r0 c) st = set_path (e :: es) l c st).
  { intros G R. rewrite (bind_ok _ _ _ _ _ R), PX; auto. cbn [get_path]. rewrite (bind_ok _ _ _ _ _ G). reflexivity. }
  assert (Bad : get_elem l e false st = (Ok None, st) -> get_ref_elem l e None st = (Throw UnexpectedTypeError, st) ->
    (forall c', set_elem l e c' st = (Throw UnexpectedTypeError, st)) ->
    (let* r := get_ref_elem l e None in let* r0 := chain r es in set_ref r0 c) st = set_path (e :: es) l c st).
  { intros G R S. rewrite (bind_throw _ _ _ _ _ R). cbn [set_path]. rewrite (bind_ok _ _ _ _ _ G). destruct es; [symmetry; apply S|].
    rewrite (bind_throw _ _ _ _ _ (S CNull)). reflexivity. }
  destruct e as [k|i].
  - destruct d;
      try (apply Bad; [cbn [get_elem]; unfold get_key|cbn [get_ref_elem]; unfold get_ref_key|intros c'; cbn [set_elem]; unfold set_key];
           rewrite (bind_load _ _ _ _ Pd); reflexivity).
    + apply Miss; [cbn [get_elem]; unfold get_key|cbn [get_ref_elem]; unfold get_ref_key]; rewrite (bind_load _ _ _ _ Pd); reflexivity.
    + destruct I as [_ (y & Ey & Ky)]. destruct y; try discriminate. destruct (mget k m) as [d|] eqn:G.
      * apply (Here (LKey s k)).
        -- cbn. rewrite Ey, G. discriminate.
        -- cbn [get_elem]; unfold get_key. rewrite (bind_load _ _ _ _ Pd), (bind_get_map _ _ _ _ Ey), G. reflexivity.
        -- cbn [get_ref_elem]; unfold get_ref_key, map_get_ref. rewrite (bind_load _ _ _ _ Pd), (bind_get_map _ _ _ _ Ey), G. reflexivity.
      * apply Miss.
        -- cbn [get_elem]; unfold get_key. rewrite (bind_load _ _ _ _ Pd), (bind_get_map _ _ _ _ Ey), G. reflexivity.
        -- cbn [get_ref_elem]; unfold get_ref_key, map_get_ref. rewrite (bind_load _ _ _ _ Pd), (bind_get_map _ _ _ _ Ey), G. reflexivity.
  - destruct d;
      try (apply Bad; [cbn [get_elem]; unfold get_index|cbn [get_ref_elem]; unfold get_ref_index|intros c'; cbn [set_elem]; unfold set_index];
           rewrite (bind_load _ _ _ _ Pd); reflexivity).
    + apply Miss; [cbn [get_elem]; unfold get_index|cbn [get_ref_elem]; unfold get_ref_index]; rewrite (bind_load _ _ _ _ Pd); reflexivity.
    + destruct I as [_ (y & Ey & Ky)]. destruct y as [|cs| |]; try discriminate. destruct (i <? lsize cs) eqn:G.
      * apply (Here (LIdx s i)).
        -- cbn. rewrite Ey. unfold nthN. intros H. apply nth_error_None in H. apply N.ltb_lt in G. unfold lsize in G. lia.
        -- cbn [get_elem]; unfold get_index. rewrite (bind_load _ _ _ _ Pd), (bind_get_list _ _ _ _ Ey), G. reflexivity.
        -- cbn [get_ref_elem]; unfold get_ref_index, list_get_ref. rewrite (bind_load _ _ _ _ Pd), (bind_get_list _ _ _ _ Ey), G. reflexivity.
      * apply Miss.
        -- cbn [get_elem]; unfold get_index. rewrite (bind_load _ _ _ _ Pd), (bind_get_list _ _ _ _ Ey), G. reflexivity.
        -- cbn [get_ref_elem]; unfold get_ref_index, list_get_ref. rewrite (bind_load _ _ _ _ Pd), (bind_get_list _ _ _ _ Ey), G. reflexivity.
Qed.
