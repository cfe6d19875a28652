(** C24: flattening the paths of a document and expanding the result gives the document back.
    C25: recursive diff and update. *)
From Verif Require Import Base CNum Float Value Blob Path PathProofs Numeric Convert Emit Uri P_Uri P_Equal Heap HeapProofs HeapSpec SharingProofs ValueOps HeapTree
  HeapErase HeapTreeFacts P_Sharing P_Elements Pointer PointerWalk PointerOps PointerCmp PointerSem PatchSem PointerText P_Pointer P_Patch DiffSem DiffRun P_Diff
  Ext ExtSem ExtValue FlatSem FlatValue.
Open Scope N_scope.

(** ** Starting with a new variable *)
Lemma start st i ci c lr y cr H : peek st (LVar i) = Some ci -> lr <> LVar i -> tree st lr y cr H ->
  exists st', store (LVar i) c st = (Ok tt, st') /\ h_heap st' = h_heap st /\ peek st' (LVar i) = Some c /\ tree st' lr y cr H /\
    forall l d, l <> LVar i -> peek st l = Some d -> peek st' l = Some d.
Proof.
  intros P Ne T. destruct (store_ok st (LVar i) ci c P) as (st' & E & V & Hh & L).
  assert (Hp : h_heap st' = h_heap st) by (apply nth_ext_eq; intros s; rewrite Hh; cbn [patch]; destruct (nth_error (h_heap st) s) as [[]|]; reflexivity).
  assert (Pk : forall l d, l <> LVar i -> peek st l = Some d -> peek st' l = Some d).
  { intros l d N Q. destruct l as [j|s j|s k]; cbn [peek] in *; try (rewrite Hp; exact Q). rewrite V. cbn [patchv]. rewrite nth_lput. destruct (Nat.eqb_spec j i) as [->|]; [congruence|exact Q]. }
  exists st'. split; [exact E|]. split; [exact Hp|]. split; [exact (peek_patched _ _ _ _ _ P V (fun s _ => Hh s))|]. split; [|exact Pk].
  destruct T as [Q O N O1 S]. split; auto; [rewrite Hp; exact O|]. destruct lr; cbn [lsorted] in *; try exact I. rewrite Hp. exact S.
Qed.
Lemma null_tree st i : peek st (LVar i) = Some CNull -> tree st (LVar i) VNull CNull [].
Proof. intros P. split; [exact P|cbn; auto|constructor|exact I|exact I]. Qed.
Lemma tree_view st l F lr y cr H : tree st lr y cr H -> apart F H -> outside l H -> outside lr F -> lr <> l -> view st l F lr y cr H.
Proof. intros [P O N _ _] A Ol Or Ne. repeat split; auto. Qed.

(** ** C24 *)

(** Where keys separate from each other in the texts of paths. *)
Theorem C24_path_text_partial prm d p : ep_delim prm = [d] -> (ep_first prm = [] \/ ep_first prm = [d] \/ ep_first prm = ["/"%char]) ->
  (forall k, In (PKey k) p -> k <> [] /\ forall c, In c k -> c <> d /\ c <> "/"%char /\ c <> "["%char /\ c <> "\"%char) ->
  (forall i, In (PIdx i) p -> i < 2^32 - 1 /\ ep_open prm = ["["%char] /\ ep_close prm = ["]"%char] /\ d <> "["%char /\ d <> "]"%char /\ is_digit d = false) ->
  p <> [] -> parse_path (to_slash d (fold_left (elem_prefix prm) p [])) = Ok p.
Proof.
  intros Dl Pf Ks Is N. apply (parse_text_path prm d p Dl Pf); auto. apply Forall_forall. intros [k|i] J; [exact (Ks k J)|exact (Is i J)].
Qed.
Print Assumptions C24_path_text_partial.

Lemma leaf_paths prm d x : (forall q m k, vat x q = Some (VMap m) -> In k (mkeys m) -> key_plain d k) ->
  (forall q l, vat x q = Some (VList l) -> vleaf prm (VList l) = false -> brackets prm d) -> lists_fit x ->
  forall p w, leafat prm x p w -> Forall (elem_plain prm d) p.
Proof.
  intros Ks Ls Fit p w Lf. induction Lf as [|x e y p w L C Lf IH]; [constructor|].
  constructor; [|apply IH].
  - destruct x, e; try discriminate; cbn [elem_plain].
    + split; [|exact (Ls [] l eq_refl L)]. assert (Z := Fit [] l eq_refl). cbn [vchild] in C. assert (N.to_nat i < List.length l)%nat by (apply nth_error_Some; congruence). lia.
    + apply (Ks [] m); [reflexivity|]. cbn [vchild] in C. apply mget_In in C. apply (in_map fst) in C. exact C.
  - intros q m k A. apply (Ks (e :: q)). cbn [vat]. rewrite C. exact A.
  - intros q l A. apply (Ls (e :: q)). cbn [vat]. rewrite C. exact A.
  - exact (lists_fit_child x e y Fit C).
Qed.
(** A document without blobs, with no key that is empty or has the delimiter, a slash, an opening
    bracket or a backslash, with no empty map and - where lists are taken apart - no empty list; lists are taken
    apart only if the index is written in brackets and the delimiter is neither a bracket nor a digit;
    the text before the first key is empty, the delimiter or a slash.  (Each of these is needed, see below.)
    Flattening succeeds, leaves the document as it is and shares no list and no map with it, and expanding
    the result gives the document. *)
Theorem C24_flatten_expand_partial st lr x c H i ci j cj prm d fuel :
  tree st lr x c H -> peek st (LVar i) = Some ci -> peek st (LVar j) = Some cj -> i <> j -> lr <> LVar i ->
  ep_delim prm = [d] -> (ep_first prm = [] \/ ep_first prm = [d] \/ ep_first prm = ["/"%char]) ->
  (forall q m k, vat x q = Some (VMap m) -> In k (mkeys m) -> k <> [] /\ forall a, In a k -> a <> d /\ a <> "/"%char /\ a <> "["%char /\ a <> "\"%char) ->
  (forall q l, vat x q = Some (VList l) -> ep_nosimple prm = true \/ Exists (fun w => (exists l', w = VList l') \/ exists m, w = VMap m) l ->
     ep_open prm = ["["%char] /\ ep_close prm = ["]"%char] /\ d <> "["%char /\ d <> "]"%char /\ is_digit d = false) ->
  (forall q, vat x q <> Some (VMap [])) -> (ep_nosimple prm = true -> forall q, vat x q <> Some (VList [])) ->
  noblob x -> lists_fit x -> (vdepth x <= fuel)%nat ->
  exists st1 v c1 F1 st2 c2 F2, flatten_path fuel prm lr i st = (Ok tt, st1) /\ peek st1 lr = Some c /\ owns (h_heap st1) x c H /\
    tree st1 (LVar i) v c1 F1 /\ apart F1 H /\ expand_path prm (LVar i) j st1 = (Ok tt, st2) /\ tree st2 (LVar j) x c2 F2.
Proof.
  intros T Pi Pj Nij Ni Dl Pf Ks Ls Em El Nb Fit D. assert (Sx := owns_sorted _ _ _ _ (tr_owns _ _ _ _ _ T)).
  assert (Ls' : forall q l, vat x q = Some (VList l) -> vleaf prm (VList l) = false -> brackets prm d).
  { intros q l A L. apply (Ls q l A). cbn [vleaf] in L. destruct (ep_nosimple prm); [auto|right]. cbn in L. clear -L. induction l as [|a l IH]; [discriminate|].
    cbn [vsimple forallb] in L. destruct a; try (apply Exists_cons_tl, IH, L); apply Exists_cons_hd; eauto. }
  assert (Fl : filled prm x).
  { intros q u A L E. destruct u; try discriminate; cbn [velems] in E.
    - destruct l; [|discriminate]. cbn [vleaf vsimple forallb] in L. rewrite andb_true_r in L. apply negb_false_iff in L. exact (El L q A).
    - destruct m; [|discriminate]. exact (Em q A). }
  destruct (start st i ci CNull lr x c H Pi Ni T) as (s0 & E0 & H0 & P0 & T0 & K0).
  assert (Ap0 : apart [] H) by (intros t []).
  assert (V0 : view s0 (LVar i) [] lr x c H) by (apply tree_view; auto; [exact I|destruct lr; cbn; auto]).
  assert (Tn := null_tree s0 i P0).
  assert (Two : forall st1 v' (Ex : forall s2 c' F', view s2 (LVar j) [] (LVar i) v' c' F' -> tree s2 (LVar j) VNull CNull [] -> exists s3 c3 F3, expand_to prm (RRef (LVar j)) (LVar i) s2 = (Ok tt, s3) /\ tree s3 (LVar j) x c3 F3),
    flatten_to fuel prm (RRef (LVar i)) lr [] s0 = (Ok tt, st1) -> becomes s0 (LVar i) [] [] st1 v' ->
    exists st1 v c1 F1 st2 c2 F2, flatten_path fuel prm lr i st = (Ok tt, st1) /\ peek st1 lr = Some c /\ owns (h_heap st1) x c H /\
    tree st1 (LVar i) v c1 F1 /\ apart F1 H /\ expand_path prm (LVar i) j st1 = (Ok tt, st2) /\ tree st2 (LVar j) x c2 F2).
  { intros st1 v' Ex E1 B1. assert (B1' := B1). destruct B1 as (c' & F' & U). assert (V1 := view_turns _ _ _ _ _ _ _ _ _ _ _ _ _ Tn U V0).
    assert (Pj1 : peek st1 (LVar j) = Some cj).
    { apply (elsewhere s0 (LVar i) VNull CNull [] [] st1 v' Tn B1' (LVar j) cj); [congruence| |exact I]. apply K0; [congruence|exact Pj]. }
    assert (Nji : LVar i <> LVar j) by congruence.
    destruct (start st1 j cj CNull (LVar i) v' c' F' Pj1 Nji (proj1 U)) as (s2 & E2 & H2 & P2 & T2 & K2).
    destruct (Ex s2 c' F') as (s3 & c3 & F3 & E3 & T3).
    { apply tree_view; auto; try exact I. intros t []. }
    { apply null_tree, P2. }
    exists st1, v', c', F', s3, c3, F3. split; [unfold flatten_path; rewrite (bind_ok _ _ _ _ _ E0); exact E1|]. split; [apply V1|]. split; [apply V1|]. split; [apply U|]. split; [apply V1|].
    split; [unfold expand_path; rewrite (bind_ok _ _ _ _ _ E2); exact E3|exact T3]. }
  destruct (vleaf prm x) eqn:L.
  - destruct (flatten_root fuel prm s0 (LVar i) CNull [] lr x c H Tn V0 Nb Fit D) as (st1 & E1 & B1).
    { intros e J. destruct x; try (exfalso; exact J); try discriminate. cbn [velems] in J. apply in_map_iff in J. destruct J as (n & <- & _). cbn [elem_prefix app]. intros Q.
      destruct (dec_of_N_spec (N.of_nat n)) as (_ & _ & Z & _). apply app_eq_nil in Q. destruct Q as [_ Q]. apply app_eq_nil in Q. destruct Q as [Q _]. contradiction. }
    apply (Two st1 _) with (2 := E1) (3 := B1). intros s2 c' F' V T2. destruct fuel as [|fuel]; [assert (Z := vdepth_pos x); lia|]. cbn [vflat] in V. rewrite L in V.
    destruct (expand_other s2 (LVar j) CNull [] (LVar i) x c' F' prm T2 V) as (s3 & c3 & F3 & E3 & T3); eauto 6. intros [m ->]. discriminate.
  - destruct (flat_expand prm d fuel x Dl Pf Sx D L Fl (leaf_paths prm d x Ks Ls' Fit)) as (fm & Ef & Sm & Ev & Ne).
    destruct (flatten_root fuel prm s0 (LVar i) CNull [] lr x c H Tn V0 Nb Fit D Ne) as (st1 & E1 & B1). rewrite Ef in B1.
    apply (Two st1 _) with (2 := E1) (3 := B1). intros s2 c' F' V T2.
    destruct (expand_sem s2 (LVar j) CNull [] (LVar i) fm c' F' prm d x T2 V Dl Sm Ev) as (s3 & c3 & F3 & E3 & T3); eauto 6.
Qed.
Print Assumptions C24_flatten_expand_partial.

(** What is in the flat document: exactly the leaves, under the texts of their paths.  It shares no list and
    no map with the document. *)
Theorem C24_flat_exact_partial st lr x c H i ci prm d fuel :
  tree st lr x c H -> peek st (LVar i) = Some ci -> lr <> LVar i ->
  ep_delim prm = [d] -> (ep_first prm = [] \/ ep_first prm = [d] \/ ep_first prm = ["/"%char]) ->
  (forall q m k, vat x q = Some (VMap m) -> In k (mkeys m) -> k <> [] /\ forall a, In a k -> a <> d /\ a <> "/"%char /\ a <> "["%char /\ a <> "\"%char) ->
  (forall q l, vat x q = Some (VList l) -> ep_open prm = ["["%char] /\ ep_close prm = ["]"%char] /\ d <> "["%char /\ d <> "]"%char /\ is_digit d = false) ->
  ep_nosimple prm = true -> (exists m, x = VMap m) \/ (exists l, x = VList l) -> noblob x -> lists_fit x -> (vdepth x <= fuel)%nat ->
  exists st1 v c1 F1, flatten_path fuel prm lr i st = (Ok tt, st1) /\ tree st1 (LVar i) v c1 F1 /\ apart F1 H /\
    forall t w, (exists m, v = VMap m /\ mget t m = Some w) <->
      (exists p, t = fold_left (elem_prefix prm) p [] /\ vat x p = Some w /\ (forall m, w <> VMap m) /\ (forall l, w <> VList l)).
Proof.
  intros T Pi Ni Dl Pf Ks Ls Ns Ct Nb Fit D. assert (Sx := owns_sorted _ _ _ _ (tr_owns _ _ _ _ _ T)).
  assert (Pl := leaf_paths prm d x Ks (fun q l A _ => Ls q l A) Fit).
  assert (Lf : forall w, vleaf prm w = true <-> (forall m, w <> VMap m) /\ (forall l, w <> VList l)).
  { intros w. split; [destruct w; cbn [vleaf]; rewrite ?Ns; try discriminate; split; discriminate|]. intros [A B]. destruct w; try reflexivity; [destruct (B l eq_refl)|destruct (A m eq_refl)]. }
  assert (L : vleaf prm x = false) by (destruct Ct as [[m ->]|[l ->]]; cbn [vleaf]; rewrite ?Ns; reflexivity).
  assert (At : forall p x w, vsorted x -> (leafat prm x p w <-> vat x p = Some w /\ vleaf prm w = true)).
  { induction p as [|e p IH]; intros z w Sz; (split; [intros Q; split; [apply (leafat_vat prm), Q|exact (leafat_leaf prm _ _ _ Q)]|]); cbn [vat].
    - intros [E Q]. injection E as <-. constructor. exact Q.
    - intros [E Q]. destruct (vchild z e) as [y|] eqn:C; [|discriminate]. apply (leaf_in prm z e y); auto; [|apply IH; auto; eapply (vsorted_child z); eauto].
      destruct z; try discriminate; cbn [vleaf]; rewrite ?Ns; reflexivity. }
  destruct (start st i ci CNull lr x c H Pi Ni T) as (s0 & E0 & H0 & P0 & T0 & K0).
  assert (V0 : view s0 (LVar i) [] lr x c H) by (apply tree_view; auto; [intros t []|exact I|destruct lr; cbn; auto]).
  assert (Ne : forall e, In e (velems x) -> elem_prefix prm [] e <> []).
  { intros e J. apply (elem_prefix_nonempty prm d). destruct (velems_child x e Sx J) as [y C]. destruct x, e; try discriminate; cbn [elem_plain].
    - split; [|exact (Ls [] l eq_refl)]. assert (Z := Fit [] l eq_refl). cbn [vchild] in C. assert (N.to_nat i0 < List.length l)%nat by (apply nth_error_Some; congruence). lia.
    - apply (Ks [] m); [reflexivity|]. cbn [vchild] in C. apply mget_In in C. apply (in_map fst) in C. exact C. }
  destruct (flatten_root fuel prm s0 (LVar i) CNull [] lr x c H (null_tree s0 i P0) V0 Nb Fit D Ne) as (st1 & E1 & c1 & F1 & U).
  exists st1, (vflat fuel prm VNull x []), c1, F1. split; [unfold flatten_path; rewrite (bind_ok _ _ _ _ _ E0); exact E1|]. split; [apply U|].
  split; [apply (view_turns _ _ _ _ _ _ _ _ _ _ _ _ _ (null_tree s0 i P0) U V0)|].
  destruct (flat_root_ok prm fuel x Sx L D Ne) as (S' & M' & Q). intros t w.
  assert (Np : forall p z, leafat prm x p z -> p <> []) by (intros p z Lz; inversion Lz; subst; [congruence|discriminate]).
  assert (G : (exists m, vflat fuel prm VNull x [] = VMap m /\ mget t m = Some w) <-> vget t (vflat fuel prm VNull x []) = Some w).
  { destruct M' as [->|[m ->]]; cbn [vget vchild]; split; try discriminate; [intros (m & E & _); discriminate|intros (m' & E & A); injection E as <-; exact A|eauto]. }
  rewrite G. split.
  - intros A. destruct (Q t) as [(p & w' & Lw & Et & A')|[_ A']]; rewrite A in A'; [|discriminate]. injection A' as <-. exists p. split; [exact Et|].
    apply At in Lw; [|exact Sx]. destruct Lw as [B C]. split; [exact B|]. apply Lf, C.
  - intros (p & -> & B & C). assert (Lw : leafat prm x p w) by (apply At; [exact Sx|split; [exact B|apply Lf, C]]).
    destruct (Q (text_from prm [] p)) as [(p' & w' & Lw' & Et & A')|[Nh _]]; [|destruct (Nh p w Lw eq_refl)]. unfold text_from in *. rewrite A'.
    assert (E2 := parse_text_path prm d p Dl Pf (Pl p w Lw) (Np p w Lw)). unfold text_from in E2. rewrite Et in E2.
    assert (E3 := parse_text_path prm d p' Dl Pf (Pl p' w' Lw') (Np p' w' Lw')). unfold text_from in E3. rewrite E3 in E2. injection E2 as ->.
    apply leafat_vat in Lw'. congruence.
Qed.
Print Assumptions C24_flat_exact_partial.

(** *** What it is not *)

(** [flat = FlattenPath(doc); ExpandPath(flat)] with variables 0, 1 and 2: the result and both documents. *)
Definition flat_expand_shown (prm : ext_params) (st : hstate) : res unit * option value * option value :=
  let '(r, st') := (flatten_path 10 prm (LVar 0) 1;; expand_path prm (LVar 1) 2) st in (r, var_shown st' 1, var_shown st' 2).

(** Empty maps and empty lists are lost; a document that is an empty map becomes null. *)
Definition empties_doc : hstate := HState [CMap 2; CNull; CNull] [StMap []; StList []; StMap [(ka, CMap 0); (kb, CList 1); (kc, CInt 1)]].
Theorem C24_empty_containers_refuted : exists st, var_shown st 0 = Some (VMap [(ka, VMap []); (kb, VList []); (kc, VInt 1)]) /\
  flat_expand_shown default_params st = (Ok tt, Some (VMap [(kc, VInt 1)]), Some (VMap [(kc, VInt 1)])).
Proof. exists empties_doc. vm_compute. auto. Qed.
Print Assumptions C24_empty_containers_refuted.
Theorem C24_empty_document_refuted : exists st, var_shown st 0 = Some (VMap []) /\ flat_expand_shown default_params st = (Ok tt, Some VNull, Some VNull).
Proof. exists (HState [CMap 0; CNull; CNull] [StMap []]). vm_compute. auto. Qed.
Print Assumptions C24_empty_document_refuted.

(** A key with the delimiter becomes two keys. *)
Definition one_key (k : bytes) : hstate := HState [CMap 0; CNull; CNull] [StMap [(k, CInt 1)]].
Theorem C24_delimiter_refuted : exists st, var_shown st 0 = Some (VMap [(s2b "a.b", VInt 1)]) /\
  flat_expand_shown (EP true [] (s2b ".") (s2b "[") (s2b "]")) st = (Ok tt, Some (VMap [(s2b "a.b", VInt 1)]), Some (VMap [(ka, VMap [(kb, VInt 1)])])).
Proof. exists (one_key (s2b "a.b")). vm_compute. auto. Qed.
Print Assumptions C24_delimiter_refuted.
(** So does one with a slash, whatever the delimiter is. *)
Theorem C24_slash_refuted : exists st, var_shown st 0 = Some (VMap [(s2b "a/b", VInt 1)]) /\
  flat_expand_shown (EP true [] (s2b ".") (s2b "[") (s2b "]")) st = (Ok tt, Some (VMap [(s2b "a/b", VInt 1)]), Some (VMap [(ka, VMap [(kb, VInt 1)])])).
Proof. exists (one_key (s2b "a/b")). vm_compute. auto. Qed.
Print Assumptions C24_slash_refuted.
(** A bracket in a key starts an index: another document, or an exception. *)
Theorem C24_bracket_refuted : exists st st', flat_expand_shown default_params st = (Ok tt, Some (VMap [(s2b "a[1]", VInt 1)]), Some (VMap [(ka, VList [VNull; VInt 1])])) /\
  flat_expand_shown default_params st' = (Throw RuntimeError, Some (VMap [(s2b "a[b]", VInt 1)]), Some VNull).
Proof. exists (one_key (s2b "a[1]")), (one_key (s2b "a[b]")). vm_compute. auto. Qed.
Print Assumptions C24_bracket_refuted.
(** A backslash is dropped. *)
Theorem C24_backslash_refuted : exists st, flat_expand_shown default_params st = (Ok tt, Some (VMap [(s2b "a\b", VInt 1)]), Some (VMap [(s2b "ab", VInt 1)])).
Proof. exists (one_key (s2b "a\b")). vm_compute. auto. Qed.
Print Assumptions C24_backslash_refuted.
(** An empty key: its value replaces everything collected so far, and what follows then fails. *)
Theorem C24_empty_key_refuted : exists st st', flat_expand_shown default_params st = (Ok tt, Some (VInt 1), Some (VInt 1)) /\
  var_shown st' 0 = Some (VMap [([], VInt 1); (ka, VInt 2)]) /\ flat_expand_shown default_params st' = (Throw UnexpectedTypeError, Some (VInt 1), Some VNull).
Proof. exists (one_key []), (HState [CMap 0; CNull; CNull] [StMap [([], CInt 1); (ka, CInt 2)]]). vm_compute. auto. Qed.
Print Assumptions C24_empty_key_refuted.
(** Other brackets, or none: lists become maps. *)
Theorem C24_index_text_refuted : exists st, var_shown st 0 = Some (VMap [(ka, VList [VInt 1])]) /\
  flat_expand_shown (EP true [] (s2b "/") (s2b "(") (s2b ")")) st = (Ok tt, Some (VMap [(s2b "a(0)", VInt 1)]), Some (VMap [(s2b "a(0)", VInt 1)])) /\
  flat_expand_shown (EP true [] (s2b ".") (s2b ".") []) st = (Ok tt, Some (VMap [(s2b "a.0", VInt 1)]), Some (VMap [(ka, VMap [(s2b "0", VInt 1)])])).
Proof. exists (HState [CMap 1; CNull; CNull] [StList [CInt 1]; StMap [(ka, CList 0)]]). vm_compute. auto. Qed.
Print Assumptions C24_index_text_refuted.
(** Another text before the first key stays in front of it. *)
Theorem C24_path_prefix_refuted : exists st, flat_expand_shown (EP true (s2b "#") (s2b "/") (s2b "[") (s2b "]")) st = (Ok tt, Some (VMap [(s2b "#a", VInt 1)]), Some (VMap [(s2b "#a", VInt 1)])).
Proof. exists (one_key ka). vm_compute. auto. Qed.
Print Assumptions C24_path_prefix_refuted.
(** Different documents can have the same flat form, so no way of expanding could be right for all. *)
Theorem C24_not_injective_refuted : exists st st', var_shown st 0 <> var_shown st' 0 /\ flat_expand_shown default_params st = flat_expand_shown default_params st'.
Proof.
  exists (one_key (s2b "a/b")), (HState [CMap 1; CNull; CNull] [StMap [(kb, CInt 1)]; StMap [(ka, CMap 0)]]). split; [discriminate|]. vm_compute. reflexivity.
Qed.
Print Assumptions C24_not_injective_refuted.
(** ExpandPathTo can change the document it reads, which is declared constant: values that are maps are shared, not copied. *)
Theorem C24_expand_changes_input_refuted : exists st st', var_shown st 1 = Some (VMap [(ka, VMap [(kc, VInt 1)]); (s2b "a/b", VInt 2)]) /\
  expand_path default_params (LVar 1) 2 st = (Ok tt, st') /\ var_shown st' 1 = Some (VMap [(ka, VMap [(kb, VInt 2); (kc, VInt 1)]); (s2b "a/b", VInt 2)]).
Proof.
  exists (HState [CNull; CMap 1; CNull] [StMap [(kc, CInt 1)]; StMap [(ka, CMap 0); (s2b "a/b", CInt 2)]]). eexists. split; [vm_compute; reflexivity|]. split; [vm_compute; reflexivity|]. vm_compute. reflexivity.
Qed.
Print Assumptions C24_expand_changes_input_refuted.

(** *** A case that meets the hypotheses: [{"a":[1,{"b":null}],"c":"b"}], with ':' as delimiter. *)
Definition flat_value : value := VMap [(ka, VList [VInt 1; VMap [(kb, VNull)]]); (kc, VStr kb)].
Definition flat_doc : hstate := HState [CMap 3; CNull; CNull] [StMap [(kb, CNull)]; StList [CInt 1; CMap 0]; StStr kb; StMap [(ka, CList 1); (kc, CStr 2)]].
Example C24_demo_tree : tree flat_doc (LVar 0) flat_value (CMap 3) [3%nat; 1%nat; 0%nat].
Proof.
  split; [reflexivity| |repeat constructor; cbn; lia|exact I|exact I]. apply owns_VMap. exists [(ka, CList 1); (kc, CStr 2)], [[1%nat; 0%nat]; []]. repeat split.
  - intros k' [<-|[]]. reflexivity.
  - intros k' [].
  - apply owns_VList. exists [CInt 1; CMap 0], [[]; [0%nat]]. repeat split. apply owns_VMap. exists [(kb, CNull)], [[]]. repeat split. intros k' [].
Qed.
(** Every map at a path satisfies what all of them satisfy. *)
Fixpoint allv (P : value -> bool) (v : value) : bool :=
  P v && match v with VList l => forallb (allv P) l | VMap m => forallb (fun kv => allv P (snd kv)) m | _ => true end.
Lemma allv_sound P q : forall v w, allv P v = true -> vat v q = Some w -> P w = true.
Proof.
  induction q as [|e q IH]; intros v w B A; cbn [vat] in A.
  - injection A as <-. destruct v; cbn [allv] in B; apply andb_prop in B; apply B.
  - destruct (vchild v e) as [y|] eqn:C; [|discriminate]. apply (IH y w); auto. destruct v, e; try discriminate; cbn [allv vchild] in *; apply andb_prop in B; destruct B as [_ B]; rewrite forallb_forall in B.
    + apply B. eapply nth_error_In; eauto.
    + apply mget_In in C. exact (B _ C).
Qed.
Definition keys_okb (d : ascii) (v : value) : bool :=
  match v with
  | VMap m => forallb (fun k => negb (beqb k []) && forallb (fun a => negb (aeqb a d || aeqb a "/" || aeqb a "[" || aeqb a "\")) k) (mkeys m)
  | _ => true
  end.
Lemma keys_okb_sound d v : allv (keys_okb d) v = true ->
  forall q m k, vat v q = Some (VMap m) -> In k (mkeys m) -> k <> [] /\ forall a, In a k -> a <> d /\ a <> "/"%char /\ a <> "["%char /\ a <> "\"%char.
Proof.
  intros B q m k A J. assert (H := allv_sound _ q v _ B A). cbn [keys_okb] in H. rewrite forallb_forall in H. apply H in J. apply andb_prop in J. destruct J as [J1 J2].
  split; [intros ->; discriminate|]. intros a Ja. rewrite forallb_forall in J2. apply J2 in Ja. apply negb_true_iff in Ja. rewrite !orb_false_iff in Ja. destruct Ja as [[[N1 N2] N3] N4].
  repeat split; intros ->; rewrite aeqb_refl in *; discriminate.
Qed.
Definition demo_params : ext_params := EP true [] (s2b ":") (s2b "[") (s2b "]").
Example C24_demo_hypotheses : exists st1 v c1 F1 st2 c2 F2, flatten_path 10 demo_params (LVar 0) 1 flat_doc = (Ok tt, st1) /\ peek st1 (LVar 0) = Some (CMap 3) /\
  owns (h_heap st1) flat_value (CMap 3) [3%nat; 1%nat; 0%nat] /\
  tree st1 (LVar 1) v c1 F1 /\ apart F1 [3%nat; 1%nat; 0%nat] /\ expand_path demo_params (LVar 1) 2 st1 = (Ok tt, st2) /\ tree st2 (LVar 2) flat_value c2 F2.
Proof.
  apply (C24_flatten_expand_partial flat_doc (LVar 0) flat_value (CMap 3) [3%nat; 1%nat; 0%nat] 1 CNull 2 CNull demo_params ":"%char 10 C24_demo_tree); try reflexivity.
  - discriminate.
  - discriminate.
  - left. reflexivity.
  - apply keys_okb_sound. vm_compute. reflexivity.
  - intros q l _ _. repeat split; discriminate.
  - intros q A. assert (X := allv_sound (fun v => match v with VMap [] => false | _ => true end) q flat_value _ eq_refl A). discriminate.
  - intros _ q A. assert (X := allv_sound (fun v => match v with VList [] => false | _ => true end) q flat_value _ eq_refl A). discriminate.
  - apply noblobb_sound. reflexivity.
  - intros q vs. apply fitb_sound. reflexivity.
  - cbn. lia.
Qed.
Example C24_demo_exact : exists st1 v c1 F1, flatten_path 10 demo_params (LVar 0) 1 flat_doc = (Ok tt, st1) /\ tree st1 (LVar 1) v c1 F1 /\ apart F1 [3%nat; 1%nat; 0%nat] /\
  forall t w, (exists m, v = VMap m /\ mget t m = Some w) <->
      (exists p, t = fold_left (elem_prefix demo_params) p [] /\ vat flat_value p = Some w /\ (forall m, w <> VMap m) /\ (forall l, w <> VList l)).
Proof.
  apply (C24_flat_exact_partial flat_doc (LVar 0) flat_value (CMap 3) [3%nat; 1%nat; 0%nat] 1 CNull demo_params ":"%char 10 C24_demo_tree); try reflexivity.
  - discriminate.
  - left. reflexivity.
  - apply keys_okb_sound. vm_compute. reflexivity.
  - intros q l _. repeat split; discriminate.
  - left. eexists. reflexivity.
  - apply noblobb_sound. reflexivity.
  - intros q vs. apply fitb_sound. reflexivity.
  - cbn. lia.
Qed.
Example C24_demo : flat_expand_shown demo_params flat_doc = (Ok tt, Some (VMap [(s2b "a[0]", VInt 1); (s2b "a[1]:b", VNull); (kc, VStr kb)]), Some flat_value).
Proof. vm_compute. reflexivity. Qed.
Example C24_demo_text : parse_path (to_slash ":" (fold_left (elem_prefix demo_params) [PKey ka; PIdx 1; PKey kb] [])) = Ok [PKey ka; PIdx 1; PKey kb].
Proof.
  apply (C24_path_text_partial demo_params ":"%char); try reflexivity.
  - left. reflexivity.
  - intros k [E|[E|[E|[]]]]; try discriminate; injection E as <-; (split; [discriminate|]; intros a [<-|[]]; repeat split; discriminate).
  - intros i [E|[E|[E|[]]]]; try discriminate. injection E as <-. repeat split; discriminate.
  - discriminate.
Qed.

(** ** C25 *)

(** *** Updating *)

(** What an update should do: null says nothing; a map updates a map entry by entry, an entry that is
    new starting as an empty map; anything else takes the place of what was there. *)
Inductive updated : value -> value -> value -> Prop :=
| upd_null b : updated b VNull b
| upd_other b u : u <> VNull -> ~ ((exists m, b = VMap m) /\ (exists m, u = VMap m)) -> updated b u u
| upd_maps bm um rm : msorted rm ->
    (forall k, mget k um = None -> mget k rm = mget k bm) ->
    (forall k w x, mget k um = Some w -> mget k bm = Some x -> exists r, mget k rm = Some r /\ updated x w r) ->
    (forall k w, mget k um = Some w -> mget k bm = None -> exists r, mget k rm = Some r /\ updated (VMap []) w r) ->
    updated (VMap bm) (VMap um) (VMap rm).
Lemma vrupd_updated n : forall b u, vsorted b -> vsorted u -> (vdepth u <= n)%nat -> updated b u (vrupd n b u).
Proof.
  induction n as [|n IH]; intros b u Sb Su D; [assert (Z := vdepth_pos u); lia|].
  assert (Dec : u = VNull \/ u <> VNull) by (destruct u; auto; right; discriminate). destruct Dec as [->|Nn]; [constructor|].
  assert (Other : ~ (is_map b /\ is_map u) -> updated b u (vrupd (S n) b u)) by (intros M; rewrite vrupd_value; [apply upd_other; auto|lia|exact Nn|exact M]).
  destruct (is_map_dec b) as [[bm ->]|Nb]; [|apply Other; intros [X _]; contradiction]. destruct (is_map_dec u) as [[um ->]|Nu]; [|apply Other; intros [_ X]; contradiction]. clear Other.
  destruct (vrupd_map n bm um) as (r & -> & Sr & G); [apply vsorted_map in Sb; apply Sb|apply vsorted_map in Su; apply Su|].
  assert (Du : forall k w, mget k um = Some w -> (vdepth w <= n)%nat) by (intros k w Gw; assert (Z := vdepth_child (VMap um) (PKey k) w Gw); lia).
  apply upd_maps; auto.
  - intros k Gu. rewrite G, Gu. reflexivity.
  - intros k w x Gu Gb. eexists. split; [rewrite G, Gu, Gb; reflexivity|]. apply IH; [exact (vsorted_child (VMap bm) (PKey k) x Sb Gb)|exact (vsorted_child (VMap um) (PKey k) w Su Gu)|eauto].
  - intros k w Gu Gb. eexists. split; [rewrite G, Gu, Gb; reflexivity|]. apply IH; [cbn; auto|exact (vsorted_child (VMap um) (PKey k) w Su Gu)|eauto].
Qed.
(** RUpdate does this, changes nothing outside the base, and shares no list and no map with the update. *)
Theorem C25_update_exact st l b c F lu u cu H fuel :
  tree st l b c F -> tree st lu u cu H -> apart F H -> outside l H -> outside lu F -> lu <> l -> noblob u -> (vdepth u <= fuel)%nat ->
  exists st' r c' F', rupdate fuel (RRef l) lu st = (Ok tt, st') /\ tree st' l r c' F' /\ apart F' H /\ updated b u r /\
    forall l2 d, l2 <> l -> outside l2 F -> peek st l2 = Some d -> peek st' l2 = Some d.
Proof.
  intros T Tu A Ol Or Ne Nb D. destruct (rupdate_sem fuel st l b c F lu u cu H T (tree_view _ _ _ _ _ _ _ Tu A Ol Or Ne) Nb D) as (st' & E & B). assert (B' := B). destruct B as (c' & F' & U).
  exists st', (vrupd fuel b u), c', F'. split; [exact E|]. split; [apply U|].
  split; [apply (view_turns _ _ _ _ _ _ _ _ _ _ _ _ _ T U (tree_view _ _ _ _ _ _ _ Tu A Ol Or Ne))|]. split.
  - apply vrupd_updated; [eapply owns_sorted, tr_owns, T|eapply owns_sorted, tr_owns, Tu|exact D].
  - intros l2 d N2 O2 P. exact (elsewhere st l b c F [] st' _ T B' l2 d N2 P O2).
Qed.
Print Assumptions C25_update_exact.

(** Nothing at all happens when the update is null, or when it is an empty map and the base a map. *)
Theorem C25_update_nothing st l c lu cu fuel : peek st l = Some c -> peek st lu = Some cu ->
  cu = CNull \/ (exists s su, c = CMap s /\ cu = CMap su /\ nth_error (h_heap st) su = Some (StMap [])) ->
  rupdate (S fuel) (RRef l) lu st = (Ok tt, st).
Proof.
  intros P Pu [->|(s & su & -> & -> & E)]; cbn [rupdate]; rewrite (bind_load _ _ _ _ Pu); [reflexivity|].
  cbn [exists_ref]. rewrite (bind_ok (ret true) _ st true st eq_refl). rewrite bind_assoc. unfold read_ref. cbn [resolve_throw]. rewrite bind_assoc.
  rewrite (bind_ok (ret l) _ st l st eq_refl), (bind_load _ _ _ _ P), (bind_ok (ret true) _ st true st eq_refl), (bind_get_map _ _ _ _ E). reflexivity.
Qed.
Print Assumptions C25_update_nothing.

(** Entries that the update does not name stay: at any depth, as long as the base has maps where the
    update has maps. *)
Theorem C25_not_named st l b c F lu u cu H fuel :
  tree st l b c F -> tree st lu u cu H -> apart F H -> outside l H -> outside lu F -> lu <> l -> noblob u -> (vdepth u <= fuel)%nat ->
  exists st' r c' F', rupdate fuel (RRef l) lu st = (Ok tt, st') /\ tree st' l r c' F' /\
    forall ks k q um bm, vat u (List.map PKey ks) = Some (VMap um) -> vat b (List.map PKey ks) = Some (VMap bm) -> mget k um = None ->
      vat r (List.map PKey ks ++ PKey k :: q) = vat b (List.map PKey ks ++ PKey k :: q).
Proof.
  intros T Tu A Ol Or Ne Nb D. destruct (rupdate_sem fuel st l b c F lu u cu H T (tree_view _ _ _ _ _ _ _ Tu A Ol Or Ne) Nb D) as (st' & E & c' & F' & U).
  exists st', (vrupd fuel b u), c', F'. split; [exact E|]. split; [apply U|]. intros ks k q um bm Au Ab G.
  eapply update_elsewhere; eauto; eapply owns_sorted, tr_owns; eassumption.
Qed.
Print Assumptions C25_not_named.

(** *** Updating with the difference *)

(** [d = RDiff(base, other); RUpdate(base, d)] with a variable [i] for [d]. *)
Definition diff_then_update (fuel : nat) (base other : loc) (i : nat) : M unit :=
  rdiff_new fuel base other i;; rupdate fuel (RRef base) (LVar i).
Lemma noblob_map m : Forall (fun kv => noblob (snd kv)) m -> noblob (VMap m).
Proof. intros H. apply noblob_VMap. induction H as [|[k x] m A _ IH]; [exact I|split; auto]. Qed.
Lemma vrd_noblob n : forall b y, vsorted y -> noblob y -> noblob (vrd n (VMap []) b y).
Proof.
  induction n as [|n IH]; intros b y Sy Ny; [exact I|].
  assert (Leaf : noblob (if veqb b y then VMap [] else y)) by (destruct (veqb b y); [exact I|exact Ny]).
  destruct y; try exact Leaf. destruct b; try exact Ny. assert (Sm := proj1 (proj1 (vsorted_map _) Sy)). destruct (vrd_map n m0 m Sm) as (r & -> & Sr & G).
  apply noblob_map. apply Forall_forall. intros [k x] J. apply In_mget in J; [|exact Sr]. cbn [snd]. rewrite G in J. destruct (mget k m) as [w|] eqn:Gm; [|discriminate].
  assert (Nw := noblob_child (VMap m) (PKey k) w Ny Gm). assert (Sw := vsorted_child (VMap m) (PKey k) w Sy Gm). destruct (mget k m0) as [z|]; [|injection J as <-; exact Nw].
  destruct (veqb z w); [discriminate|]. apply kept_some in J. destruct J as (-> & _). apply IH; auto.
Qed.
Lemma diff_update_run st lb b cb Fb ly y cy Fy i ci fuel : tree st lb b cb Fb -> tree st ly y cy Fy -> peek st (LVar i) = Some ci -> lb <> LVar i -> ly <> LVar i ->
  noblob b -> noblob y -> (vdepth y <= fuel)%nat ->
  exists st1 st2 cd Fd c' F', rdiff_new fuel lb ly i st = (Ok tt, st1) /\ tree st1 (LVar i) (vrd fuel (VMap []) b y) cd Fd /\
    tree st1 lb b cb Fb /\ tree st1 ly y cy Fy /\ apart Fd Fb /\ apart Fd Fy /\ rupdate fuel (RRef lb) (LVar i) st1 = (Ok tt, st2) /\
    tree st2 lb (vrupd fuel b (vrd fuel (VMap []) b y)) c' F'.
Proof.
  intros Tb Ty Pi Nb Ny Bb By D. assert (Sy := owns_sorted _ _ _ _ (tr_owns _ _ _ _ _ Ty)).
  destruct (alloc_ok (StMap []) st) as (s0 & E0 & X & N0 & L0).
  assert (Tb0 := extends_tree _ _ _ _ _ _ X Tb). assert (Ty0 := extends_tree _ _ _ _ _ _ X Ty).
  destruct (store_ok s0 (LVar i) ci (CMap (hlen st)) (extends_peek _ _ _ _ X Pi)) as (s1 & E1 & V1 & H1 & L1).
  destruct (start s0 i ci (CMap (hlen st)) lb b cb Fb (extends_peek _ _ _ _ X Pi) Nb Tb0) as (s1' & E1' & Hp & P1 & Tb1 & _). rewrite E1 in E1'. injection E1' as <-.
  destruct (start s0 i ci (CMap (hlen st)) ly y cy Fy (extends_peek _ _ _ _ X Pi) Ny Ty0) as (s1' & E1' & _ & _ & Ty1 & _). rewrite E1 in E1'. injection E1' as <-.
  assert (Td : tree s1 (LVar i) (VMap []) (CMap (hlen st)) [hlen st]).
  { split; [exact P1| |repeat constructor; intros []|exact I|exact I]. rewrite Hp. apply owns_VMap. exists [], []. repeat split; auto. }
  assert (Low : forall l v c F, tree st l v c F -> apart [hlen st] F /\ outside l [hlen st]).
  { intros l v c F T. split; [intros s [<-|[]] J; assert (Z := owns_lt _ _ _ _ _ (tr_owns _ _ _ _ _ T) J); unfold hlen in Z; lia|].
    destruct l as [x|s j|s k]; cbn [outside]; auto; intros [J|[]]; (assert (s < hlen st)%nat; [|lia]); eapply (peek_lt st _ _ s (tr_peek _ _ _ _ _ T)); cbn; intros C; apply C; auto. }
  assert (Vb : view s1 (LVar i) [hlen st] lb b cb Fb) by (apply tree_view; auto; [apply (Low _ _ _ _ Tb)|exact I|apply (Low _ _ _ _ Tb)]).
  assert (Vy : view s1 (LVar i) [hlen st] ly y cy Fy) by (apply tree_view; auto; [apply (Low _ _ _ _ Ty)|exact I|apply (Low _ _ _ _ Ty)]).
  destruct (rdiff_sem fuel s1 (LVar i) (VMap []) _ _ lb b cb Fb ly y cy Fy Td Vb Vy ltac:(eexists; reflexivity) Bb By D) as (s2 & E2 & cd & Fd & U).
  assert (Wb := view_turns _ _ _ _ _ _ _ _ _ _ _ _ _ Td U Vb). assert (Wy := view_turns _ _ _ _ _ _ _ _ _ _ _ _ _ Td U Vy).
  assert (Lift : forall l v c F, tree s1 l v c F -> view s2 (LVar i) Fd l v c F -> lsorted s2 l -> tree s2 l v c F).
  { intros l v c F T (P & O & N & _) Ls. split; auto. apply T. }
  assert (Same : forall l v c F, tree st l v c F -> tree s1 l v c F -> lsorted s2 l).
  { intros l v c F T T1. assert (S1 := tr_sort _ _ _ _ _ T1). destruct l as [x|s j|s k]; cbn [lsorted] in *; auto.
    assert (Ls : (s < hlen st)%nat) by (eapply (peek_lt st _ _ s (tr_peek _ _ _ _ _ T)); cbn; intros C; apply C; auto).
    destruct U as (_ & _ & _ & N & _). rewrite N; [|unfold hlen in *; lia|intros [J|[]]; lia]. destruct (nth_error (h_heap s1) s) as [[]|]; exact S1. }
  exists s2.
  assert (Tb2 := Lift _ _ _ _ Tb1 Wb (Same _ _ _ _ Tb Tb1)). assert (Ty2 := Lift _ _ _ _ Ty1 Wy (Same _ _ _ _ Ty Ty1)).
  destruct (rupdate_sem fuel s2 lb b cb Fb (LVar i) (vrd fuel (VMap []) b y) cd Fd Tb2) as (s3 & E3 & c' & F' & U3).
  - destruct Wb as (_ & _ & _ & A & _ & Or & Ne). apply tree_view; [apply U|intros s J J'; exact (A s J' J)|exact Or|exact I|congruence].
  - apply vrd_noblob; auto.
  - assert (Z := vrd_depth fuel b y Sy). lia.
  - exists s3, cd, Fd, c', F'. split; [unfold rdiff_new; rewrite bind_assoc, (bind_ok _ _ _ _ _ E0), (bind_ok _ _ _ _ _ E1); exact E2|].
    split; [apply U|]. split; [exact Tb2|]. split; [exact Ty2|]. split; [apply Wb|]. split; [apply Wy|]. split; [exact E3|apply U3].
Qed.
(** For two maps without NaN and blobs: the update with the difference always succeeds, and it leads to
    the other document exactly if these are [updatable]: wherever both have a map, every key of the
    first is a key of the second, and what only the second has contains no null outside of lists;
    and where they differ otherwise, the second has neither a null nor an empty map. *)
Theorem C25_diff_update_partial st lb b cb Fb ly y cy Fy i ci fuel :
  tree st lb b cb Fb -> tree st ly y cy Fy -> peek st (LVar i) = Some ci -> lb <> LVar i -> ly <> LVar i ->
  (exists m, b = VMap m) -> (exists m, y = VMap m) -> vok b -> vok y -> plain b -> plain y -> (vdepth y <= fuel)%nat ->
  exists st' r c' F', diff_then_update fuel lb ly i st = (Ok tt, st') /\ tree st' lb r c' F' /\ (same r y <-> updatable b y).
Proof.
  intros Tb Ty Pi Nb Ny Mb My Vb Vy Pb Py D.
  destruct (diff_update_run st lb b cb Fb ly y cy Fy i ci fuel Tb Ty Pi Nb Ny (plain_noblob _ Pb) (plain_noblob _ Py) D) as (s1 & s2 & cd & Fd & c' & F' & E1 & _ & _ & _ & _ & _ & E2 & T2).
  exists s2, (vrupd fuel b (vrd fuel (VMap []) b y)), c', F'. split; [unfold diff_then_update; rewrite (bind_ok _ _ _ _ _ E1); exact E2|]. split; [exact T2|].
  apply diff_update_iff; auto; (split; [assumption|split; [eapply owns_sorted, tr_owns; eassumption|assumption]]).
Qed.
Print Assumptions C25_diff_update_partial.
(** For the rest: when one of the two is not a map, they must differ, and the second must not be null. *)
Theorem C25_diff_update_other_partial st lb b cb Fb ly y cy Fy i ci fuel :
  tree st lb b cb Fb -> tree st ly y cy Fy -> peek st (LVar i) = Some ci -> lb <> LVar i -> ly <> LVar i ->
  ~ ((exists m, b = VMap m) /\ (exists m, y = VMap m)) -> ~ same b y -> y <> VNull -> vok b -> vok y -> plain b -> plain y -> (vdepth y <= fuel)%nat ->
  exists st' c' F', diff_then_update fuel lb ly i st = (Ok tt, st') /\ tree st' lb y c' F'.
Proof.
  intros Tb Ty Pi Nb Ny M Ns Nn Vb Vy Pb Py D. assert (Sb := owns_sorted _ _ _ _ (tr_owns _ _ _ _ _ Tb)). assert (Sy := owns_sorted _ _ _ _ (tr_owns _ _ _ _ _ Ty)).
  destruct (diff_update_run st lb b cb Fb ly y cy Fy i ci fuel Tb Ty Pi Nb Ny (plain_noblob _ Pb) (plain_noblob _ Py) D) as (s1 & s2 & cd & Fd & c' & F' & E1 & _ & _ & _ & _ & _ & E2 & T2).
  exists s2, c', F'. split; [unfold diff_then_update; rewrite (bind_ok _ _ _ _ _ E1); exact E2|].
  assert (Vq : veqb b y = false). { destruct (veqb b y) eqn:Q; [|reflexivity]. destruct Ns. apply veqb_same in Q; auto; (split; [assumption|split; assumption]). }
  assert (Ed : vrd fuel (VMap []) b y = y).
  { destruct fuel as [|n]; [assert (Z := vdepth_pos y); lia|]. destruct y; cbn [vrd]; rewrite ?Vq; try reflexivity. destruct b; try reflexivity. destruct M. split; eexists; reflexivity. }
  rewrite Ed, vrupd_value in T2; [exact T2|assert (Z := vdepth_pos y); lia|exact Nn|exact M].
Qed.
Print Assumptions C25_diff_update_other_partial.
(** RDiff reads only, what it makes shares no list and no map with the documents; the difference of two maps that are the same is an empty map. *)
Theorem C25_diff_of_same st lb b cb Fb ly y cy Fy i ci fuel :
  tree st lb b cb Fb -> tree st ly y cy Fy -> peek st (LVar i) = Some ci -> lb <> LVar i -> ly <> LVar i ->
  vok b -> vok y -> plain b -> plain y -> (vdepth y <= fuel)%nat ->
  exists st' d cd Fd, rdiff_new fuel lb ly i st = (Ok tt, st') /\ tree st' (LVar i) d cd Fd /\ tree st' lb b cb Fb /\ tree st' ly y cy Fy /\
    apart Fd Fb /\ apart Fd Fy /\ ((exists m, b = VMap m) -> same b y -> d = VMap []).
Proof.
  intros Tb Ty Pi Nb Ny Vb Vy Pb Py D. assert (Sb := owns_sorted _ _ _ _ (tr_owns _ _ _ _ _ Tb)). assert (Sy := owns_sorted _ _ _ _ (tr_owns _ _ _ _ _ Ty)).
  destruct (diff_update_run st lb b cb Fb ly y cy Fy i ci fuel Tb Ty Pi Nb Ny (plain_noblob _ Pb) (plain_noblob _ Py) D) as (s1 & s2 & cd & Fd & c' & F' & E1 & Td & T1 & T1' & A1 & A2 & _).
  exists s1, (vrd fuel (VMap []) b y), cd, Fd. repeat (split; [assumption|]). intros M S. apply diff_same; auto; (split; [assumption|split; assumption]).
Qed.
Print Assumptions C25_diff_of_same.

(** *** What it is not *)

(** The difference and the base after the update. *)
Definition diff_update_shown (st : hstate) : res unit * option value * option value :=
  let '(r, st') := diff_then_update 10 (LVar 0) (LVar 1) 2 st in (r, var_shown st' 2, var_shown st' 0).
(** Two documents that are the same and not maps: the base becomes an empty map. *)
Theorem C25_equal_scalar_refuted : exists st, var_shown st 0 = Some (VInt 5) /\ var_shown st 1 = Some (VInt 5) /\ diff_update_shown st = (Ok tt, Some (VMap []), Some (VMap [])).
Proof. exists (HState [CInt 5; CInt 5; CNull] []). vm_compute. auto. Qed.
Print Assumptions C25_equal_scalar_refuted.
(** So updating with an empty difference does change something. *)
Theorem C25_empty_update_refuted : exists st st', var_shown st 0 = Some (VInt 5) /\ var_shown st 1 = Some (VMap []) /\
  rupdate 10 (RRef (LVar 0)) (LVar 1) st = (Ok tt, st') /\ var_shown st' 0 = Some (VMap []).
Proof. exists (HState [CInt 5; CMap 0; CNull] [StMap []]). eexists. split; [reflexivity|]. split; [reflexivity|]. split; vm_compute; reflexivity. Qed.
Print Assumptions C25_empty_update_refuted.
(** A key that is only in the base stays. *)
Theorem C25_removed_key_refuted : exists st, var_shown st 0 = Some (VMap [(ka, VInt 1); (kb, VInt 2)]) /\ var_shown st 1 = Some (VMap [(ka, VInt 1)]) /\
  diff_update_shown st = (Ok tt, Some (VMap []), Some (VMap [(ka, VInt 1); (kb, VInt 2)])).
Proof. exists (HState [CMap 0; CMap 1; CNull] [StMap [(ka, CInt 1); (kb, CInt 2)]; StMap [(ka, CInt 1)]]). vm_compute. auto. Qed.
Print Assumptions C25_removed_key_refuted.
(** A new null becomes an empty map. *)
Theorem C25_new_null_refuted : exists st, var_shown st 1 = Some (VMap [(ka, VNull)]) /\ diff_update_shown st = (Ok tt, Some (VMap [(ka, VNull)]), Some (VMap [(ka, VMap [])])).
Proof. exists (HState [CMap 0; CMap 1; CNull] [StMap []; StMap [(ka, CNull)]]). vm_compute. auto. Qed.
Print Assumptions C25_new_null_refuted.
(** A null in the place of something else is not seen. *)
Theorem C25_null_refuted : exists st, var_shown st 1 = Some (VMap [(ka, VNull)]) /\ diff_update_shown st = (Ok tt, Some (VMap []), Some (VMap [(ka, VInt 1)])).
Proof. exists (HState [CMap 0; CMap 1; CNull] [StMap [(ka, CInt 1)]; StMap [(ka, CNull)]]). vm_compute. auto. Qed.
Print Assumptions C25_null_refuted.
(** Neither is an empty map in the place of something else. *)
Theorem C25_empty_map_refuted : exists st, var_shown st 1 = Some (VMap [(ka, VMap [])]) /\ diff_update_shown st = (Ok tt, Some (VMap []), Some (VMap [(ka, VInt 1)])).
Proof. exists (HState [CMap 0; CMap 2; CNull] [StMap [(ka, CInt 1)]; StMap []; StMap [(ka, CMap 1)]]). vm_compute. auto. Qed.
Print Assumptions C25_empty_map_refuted.
(** NaN is no difference. *)
Theorem C25_nan_refuted : exists st, var_shown st 1 = Some (VMap [(ka, VInt 7)]) /\ diff_update_shown st = (Ok tt, Some (VMap []), Some (VMap [(ka, VFlt S754_nan)])).
Proof. exists (HState [CMap 0; CMap 1; CNull] [StMap [(ka, CFlt S754_nan)]; StMap [(ka, CInt 7)]]). vm_compute. auto. Qed.
Print Assumptions C25_nan_refuted.

(** *** A case that meets the hypotheses: {"a":1,"b":{"a":2}} becomes {"a":[1],"b":{"a":2,"c":{"a":"b"}},"c":5}. *)
Definition upd_base : value := VMap [(ka, VInt 1); (kb, VMap [(ka, VInt 2)])].
Definition upd_other_doc : value := VMap [(ka, VList [VInt 1]); (kb, VMap [(ka, VInt 2); (kc, VMap [(ka, VStr kb)])]); (kc, VInt 5)].
Definition upd_docs : hstate := HState [CMap 1; CMap 6; CNull]
  [StMap [(ka, CInt 2)]; StMap [(ka, CInt 1); (kb, CMap 0)]; StList [CInt 1]; StStr kb; StMap [(ka, CStr 3)]; StMap [(ka, CInt 2); (kc, CMap 4)]; StMap [(ka, CList 2); (kb, CMap 5); (kc, CInt 5)]].
Example C25_demo_trees : tree upd_docs (LVar 0) upd_base (CMap 1) [1%nat; 0%nat] /\ tree upd_docs (LVar 1) upd_other_doc (CMap 6) [6%nat; 2%nat; 5%nat; 4%nat].
Proof.
  split; (split; [reflexivity| |repeat constructor; cbn; lia|exact I|exact I]).
  - apply owns_VMap. exists [(ka, CInt 1); (kb, CMap 0)], [[]; [0%nat]]. repeat split.
    + intros k' [<-|[]]. reflexivity.
    + intros k' [].
    + apply owns_VMap. exists [(ka, CInt 2)], [[]]. repeat split. intros k' [].
  - apply owns_VMap. exists [(ka, CList 2); (kb, CMap 5); (kc, CInt 5)], [[2%nat]; [5%nat; 4%nat]; []]. repeat split.
    + intros k' [<-|[<-|[]]]; reflexivity.
    + intros k' [<-|[]]. reflexivity.
    + intros k' [].
    + apply owns_VList. exists [CInt 1], [[]]. repeat split.
    + apply owns_VMap. exists [(ka, CInt 2); (kc, CMap 4)], [[]; [4%nat]]. repeat split.
      * intros k' [<-|[]]. reflexivity.
      * intros k' [].
      * apply owns_VMap. exists [(ka, CStr 3)], [[]]. repeat split. intros k' [].
Qed.
Lemma mget_cons_inv k k' (x : value) m w : mget k ((k', x) :: m) = Some w -> k = k' /\ x = w \/ mget k m = Some w.
Proof. cbn. destruct (beqb k k') eqn:B; [|auto]. apply beqb_eq in B. intros E. injection E as <-. auto. Qed.
Ltac entries H := match type of H with
  | mget _ [] = Some _ => discriminate H
  | mget _ (_ :: _) = Some _ => apply mget_cons_inv in H; destruct H as [[-> <-]|H]; [|entries H]
  end.
Example C25_demo_updatable : updatable upd_base upd_other_doc.
Proof.
  assert (Nm : forall v, (forall m, v <> VMap m) -> ~ is_map v) by (intros v N [m E]; exact (N m E)).
  apply up_maps.
  - intros k x G. entries G; discriminate.
  - intros k x w G G2. entries G; cbn in G2; injection G2 as <-.
    + apply up_value; [apply Nm; discriminate|discriminate].
    + apply up_maps.
      * intros k x G. entries G. discriminate.
      * intros k x w G G2. entries G. cbn in G2. injection G2 as <-. apply up_value; [apply Nm; discriminate|discriminate].
      * intros k w G G2. entries G2; cbn in G; try discriminate. apply set_map. intros k w G3. entries G3. apply set_value; [discriminate|apply Nm; discriminate].
  - intros k w G G2. entries G2; cbn in G; try discriminate. apply set_value; [discriminate|apply Nm; discriminate].
Qed.
Example C25_demo_hypotheses : exists st' r c' F', diff_then_update 10 (LVar 0) (LVar 1) 2 upd_docs = (Ok tt, st') /\ tree st' (LVar 0) r c' F' /\ same r upd_other_doc.
Proof.
  destruct C25_demo_trees as [T1 T2].
  destruct (C25_diff_update_partial upd_docs (LVar 0) upd_base _ _ (LVar 1) upd_other_doc _ _ 2 CNull 10 T1 T2) as (st' & r & c' & F' & E & T & S).
  - reflexivity.
  - discriminate.
  - discriminate.
  - eexists. reflexivity.
  - eexists. reflexivity.
  - cbn. repeat split; try lia; try (intros k' [<-|[]]; reflexivity); intros k' [].
  - cbn. repeat split; try lia; try (intros k' [<-|[<-|[]]]; reflexivity); try (intros k' [<-|[]]; reflexivity); intros k' [].
  - repeat (constructor; cbn [snd]); eapply plain_num; reflexivity.
  - repeat (constructor; cbn [snd]); eapply plain_num; reflexivity.
  - cbn. lia.
  - exists st', r, c', F'. split; [exact E|]. split; [exact T|]. apply S, C25_demo_updatable.
Qed.
Example C25_demo : diff_update_shown upd_docs = (Ok tt, Some (VMap [(ka, VList [VInt 1]); (kb, VMap [(kc, VMap [(ka, VStr kb)])]); (kc, VInt 5)]), Some upd_other_doc).
Proof. vm_compute. reflexivity. Qed.
(** The same documents, for the theorems about the update itself (with the second as update). *)
Example C25_demo_update : exists st' r c' F', rupdate 10 (RRef (LVar 0)) (LVar 1) upd_docs = (Ok tt, st') /\ tree st' (LVar 0) r c' F' /\ apart F' [6%nat; 2%nat; 5%nat; 4%nat] /\ updated upd_base upd_other_doc r /\
  forall l2 d, l2 <> LVar 0 -> outside l2 [1%nat; 0%nat] -> peek upd_docs l2 = Some d -> peek st' l2 = Some d.
Proof.
  destruct C25_demo_trees as [T1 T2]. apply (C25_update_exact upd_docs (LVar 0) upd_base _ _ (LVar 1) upd_other_doc _ _ 10 T1 T2); try exact I; try discriminate.
  - intros s J J'. cbn in J, J'. lia.
  - apply noblobb_sound. reflexivity.
  - cbn. lia.
Qed.
(** And an update that leaves an entry alone: {"b":{"c":1}} does not touch "a", nor "a" in "b". *)
Definition part_docs : hstate := HState [CMap 1; CMap 3; CNull] [StMap [(ka, CInt 2)]; StMap [(ka, CInt 1); (kb, CMap 0)]; StMap [(kc, CInt 1)]; StMap [(kb, CMap 2)]].
Example C25_demo_not_named : exists st' r c' F', rupdate 10 (RRef (LVar 0)) (LVar 1) part_docs = (Ok tt, st') /\ tree st' (LVar 0) r c' F' /\
  vat r [PKey ka] = Some (VInt 1) /\ vat r [PKey kb; PKey ka] = Some (VInt 2).
Proof.
  assert (T1 : tree part_docs (LVar 0) upd_base (CMap 1) [1%nat; 0%nat]).
  { split; [reflexivity| |repeat constructor; cbn; lia|exact I|exact I]. apply owns_VMap. exists [(ka, CInt 1); (kb, CMap 0)], [[]; [0%nat]]. repeat split.
    - intros k' [<-|[]]. reflexivity.
    - intros k' [].
    - apply owns_VMap. exists [(ka, CInt 2)], [[]]. repeat split. intros k' []. }
  assert (T2 : tree part_docs (LVar 1) (VMap [(kb, VMap [(kc, VInt 1)])]) (CMap 3) [3%nat; 2%nat]).
  { split; [reflexivity| |repeat constructor; cbn; lia|exact I|exact I]. apply owns_VMap. exists [(kb, CMap 2)], [[2%nat]]. repeat split.
    - intros k' [].
    - apply owns_VMap. exists [(kc, CInt 1)], [[]]. repeat split. intros k' []. }
  destruct (C25_not_named part_docs (LVar 0) upd_base _ _ (LVar 1) _ _ _ 10 T1 T2) as (st' & r & c' & F' & E & T & H); try exact I; try discriminate.
  - intros s J J'. cbn in J, J'. lia.
  - cbn. repeat split.
  - cbn. lia.
  - exists st', r, c', F'. split; [exact E|]. split; [exact T|]. split.
    + exact (H [] ka [] _ _ eq_refl eq_refl eq_refl).
    + exact (H [kb] ka [] _ _ eq_refl eq_refl eq_refl).
Qed.
Example C25_demo_nothing : rupdate 10 (RRef (LVar 0)) (LVar 2) upd_docs = (Ok tt, upd_docs).
Proof. apply (C25_update_nothing upd_docs (LVar 0) (CMap 1) (LVar 2) CNull 9); auto. Qed.
