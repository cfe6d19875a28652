(** C21: JSON pointers. *)
From Verif Require Import Base CNum Float Value Blob Path Numeric Convert Emit Uri P_Uri Heap HeapProofs HeapSpec SharingProofs ValueOps HeapTree
  HeapErase HeapTreeFacts Pointer PointerWalk PointerOps PointerCmp PointerSem PatchSem PointerText P_Sharing P_Elements.
Open Scope N_scope.

(** The object at [l] holds a tree; the value that is added or stored shares no container with it.
    [rfc_text ks] is the pointer with the reference tokens [ks], escaped as RFC 6901 asks; every
    pointer of the RFC is the text of its tokens. *)

(** ** Looking up *)
Lemma rethrow_ok {A} (m : M A) st a st' : m st = (Ok a, st') -> rethrow m st = (Ok a, st').
Proof. unfold rethrow. intros ->. reflexivity. Qed.
Lemma rethrow_throw {A} (m : M A) st e st' : m st = (Throw e, st') -> rethrow m st = (Throw RuntimeError, st').
Proof. unfold rethrow. intros ->. reflexivity. Qed.
Lemma rethrow_ub {A} (m : M A) st st' : m st = (UB, st') -> rethrow m st = (UB, st').
Proof. unfold rethrow. intros ->. reflexivity. Qed.
Lemma do_op_text ks r op : do_op (rfc_text ks) r op = pointer_op ks r op [].
Proof. unfold do_op. rewrite components_text. reflexivity. Qed.

(** A pointer to something in the document gives a reference to it, the one that following its path
    gives; a pointer to nothing throws.  Nothing changes.  The second half leaves out the texts that
    strtoull takes for an index though they are none of the RFC, see [C21_index_forms_refuted]. *)
Theorem C21_lookup_exact st l v c F ks : tree st l v c F -> lists_fit v ->
  (forall p w, locates v ks p w -> exists l' cw Fw, pointer_lookup (rfc_text ks) (RRef l) st = (Ok (RRef l'), st) /\
     tree st l' w cw Fw /\ get_path p l false st = (Ok (Some l'), st)) /\
  ((forall p w, ~ locates v ks p w) -> Forall canonical ks -> pointer_lookup (rfc_text ks) (RRef l) st = (Throw RuntimeError, st)).
Proof.
  intros T L. assert (H := op_get st l v c F ks T). split.
  - intros p w Lc. destruct (locates_route _ _ _ _ Lc L) as [R A]. rewrite R in H. destruct H as (l' & w' & cw & Fw & A' & Tw & _ & G & E).
    rewrite A in A'. injection A' as <-. exists l', cw, Fw. split.
    + apply rethrow_ok. rewrite do_op_text, (bind_ok _ _ _ _ _ E). reflexivity.
    + split; [exact Tw|]. assert (Gt := get_path_tree p st l v c F T). rewrite A in Gt. destruct Gt as (l2 & c2 & F2 & G2 & _).
      destruct (walk p st l v c F w T A) as (l3 & c3 & F3 & _ & _ & _ & G3 & _). assert (H1 := G3 true). assert (H2 := G3 false). congruence.
  - intros Nl C. destruct (route v ks) as [p|] eqn:R.
    + destruct (route_locates ks v p R C) as [w Lw]. destruct (Nl p w Lw).
    + destruct H as [e E]. eapply rethrow_throw. rewrite do_op_text. apply bind_throw, E.
Qed.
Print Assumptions C21_lookup_exact.

(** Every location in a document can be pointed to. *)
Theorem C21_every_location st l v c F p w : tree st l v c F -> lists_fit v -> vat v p = Some w ->
  exists l' cw Fw, pointer_lookup (rfc_pointer p) (RRef l) st = (Ok (RRef l'), st) /\ tree st l' w cw Fw /\ get_path p l false st = (Ok (Some l'), st).
Proof. intros T L A. apply (proj1 (C21_lookup_exact st l v c F (tokens p) T L)), locates_tokens, A. Qed.
Print Assumptions C21_every_location.

(** FormJSONPointer forms that text, when no key has a slash or a tilde in it. *)
Definition plain_key (e : pelem) : Prop := match e with PKey k => ~ In "/"%char k /\ ~ In "~"%char k | PIdx _ => True end.
Lemma escape_plain k : ~ In "/"%char k -> ~ In "~"%char k -> rfc_escape k = k.
Proof.
  induction k as [|c k IH]; auto. cbn [rfc_escape In]. intros A B. destruct (aeqb c "~") eqn:E; [apply aeqb_eq in E; subst; tauto|].
  destruct (aeqb c "/") eqn:S; [apply aeqb_eq in S; subst; tauto|]. rewrite IH; tauto.
Qed.
Lemma dec_plain i : ~ In "/"%char (dec_of_N i) /\ ~ In "~"%char (dec_of_N i).
Proof.
  destruct (dec_of_N_spec i) as (_ & D & _). rewrite forallb_forall in D. split; intros H; apply D in H; discriminate.
Qed.
Theorem C21_form_pointer_partial p : Forall plain_key p -> form_pointer p = rfc_pointer p.
Proof.
  unfold form_pointer, rfc_pointer, rfc_text, tokens. intros H. rewrite map_map. induction H as [|e p He Hp IH]; auto. cbn [List.map List.concat].
  rewrite IH. f_equal. destruct e as [k|i]; cbn [tok plain_key] in *; rewrite escape_plain; auto; try tauto; apply dec_plain.
Qed.
Print Assumptions C21_form_pointer_partial.

(** With a slash in a key, the pointer formed leads nowhere or to another place. *)
Definition slash_doc : hstate := HState [CMap 1] [StMap [(kb, CInt 2)]; StMap [(ka, CMap 0); (s2b "a/b", CInt 1)]].
Theorem C21_form_pointer_refuted :
  exists st l p x y, get_path p l false st = (Ok (Some x), st) /\ pointer_lookup (form_pointer p) (RRef l) st = (Ok (RRef y), st) /\
    peek st x = Some (CInt 1) /\ peek st y = Some (CInt 2).
Proof. exists slash_doc, (LVar 0), [PKey (s2b "a/b")], (LKey 1 (s2b "a/b")), (LKey 0 kb). vm_compute. auto. Qed.
Print Assumptions C21_form_pointer_refuted.

(** Indexes that are none of RFC 6901: 2^32 more is the same entry, a sign, a space and leading zeros are
    taken, and an escape that is cut off disappears. *)
Definition index_doc : hstate := HState [CMap 1; CList 0] [StList [CInt 5; CInt 6]; StMap [(ka, CInt 1)]].
Theorem C21_index_forms_refuted :
  pointer_lookup (s2b "/4294967296") (RRef (LVar 1)) index_doc = (Ok (RRef (LIdx 0 0)), index_doc) /\
  pointer_lookup (s2b "/+1") (RRef (LVar 1)) index_doc = (Ok (RRef (LIdx 0 1)), index_doc) /\
  pointer_lookup (s2b "/ 1") (RRef (LVar 1)) index_doc = (Ok (RRef (LIdx 0 1)), index_doc) /\
  pointer_lookup (s2b "/01") (RRef (LVar 1)) index_doc = (Ok (RRef (LIdx 0 1)), index_doc) /\
  pointer_lookup (s2b "/-4294967295") (RRef (LVar 1)) index_doc = (Ok (RRef (LIdx 0 1)), index_doc) /\
  pointer_lookup (s2b "/a~") (RRef (LVar 0)) index_doc = (Ok (RRef (LKey 1 ka)), index_doc).
Proof. repeat split; vm_compute; reflexivity. Qed.
Print Assumptions C21_index_forms_refuted.
(** Which texts select an entry of a list, and which: white space, a sign or none, at least one digit, white
    space - nothing else - up to the first NUL. *)
Lemma span_fst p s : forallb p (fst (span p s)) = true.
Proof. induction s as [|c s IH]; [reflexivity|]. cbn. destruct (p c) eqn:E; [|reflexivity]. destruct (span p s) as [a b]. cbn in *. rewrite E. exact IH. Qed.
Theorem C21_index_syntax s i : is_index s = Some i <->
  exists sp1 sign ds sp2, c_str s = sp1 ++ sign ++ ds ++ sp2 /\ forallb is_space sp1 = true /\ forallb is_space sp2 = true /\ forallb is_digit ds = true /\ ds <> [] /\
    (sign = [] \/ sign = ["+"%char] \/ sign = ["-"%char]) /\
    i = if dec_value ds <? 2^64 then (if beqb sign ["-"%char] then (2^64 - dec_value ds) mod 2^64 else dec_value ds) else 2^64 - 1.
Proof.
  unfold is_index. generalize (c_str s). clear s. intros s.
  assert (Cut : forall a t, forallb is_space a = true -> (match t with [] => true | c :: _ => negb (is_space c) end = true) -> skip_space (a ++ t) = t)
    by (intros a t A B; unfold skip_space; rewrite (CNum.span_all is_space a t A B); reflexivity).
  split.
  - assert (E1 := span_app is_space s). assert (A1 := span_fst is_space s). unfold skip_space at 1.
    set (sp1 := fst (span is_space s)) in *. set (t := snd (span is_space s)) in *. clearbody sp1 t. subst s.
    assert (Sg : exists sign, t = sign ++ snd (take_sign t) /\ (sign = [] \/ sign = ["+"%char] \/ sign = ["-"%char]) /\ fst (take_sign t) = beqb sign ["-"%char]).
    { destruct t as [|c t]; [exists []; auto|]. cbn [take_sign]. destruct (aeqb c "-") eqn:B; [apply aeqb_eq in B; subst; exists ["-"%char]; auto|].
      destruct (aeqb c "+") eqn:B2; [apply aeqb_eq in B2; subst; exists ["+"%char]; auto|exists []; auto]. }
    destruct Sg as (sign & Et & Hs & Hn). destruct (take_sign t) as [neg t1]. cbn [fst snd] in *. subst neg t.
    assert (E2 := span_app is_digit t1). assert (A2 := span_fst is_digit t1). destruct (span is_digit t1) as [ds u]. cbn [fst snd] in *. subst t1.
    destruct ds as [|d ds]; [discriminate|]. assert (E3 := span_app is_space u). assert (A3 := span_fst is_space u). unfold skip_space.
    destruct (span is_space u) as [sp2 rest]. cbn [fst snd] in *. destruct rest; [|discriminate]. rewrite app_nil_r in E3. subst u. intros Q. injection Q as <-.
    exists sp1, sign, (d :: ds), sp2. repeat (split; [auto; try discriminate|]). unfold wrap64. reflexivity.
  - intros (sp1 & sign & ds & sp2 & -> & A1 & A2 & A3 & N & Hs & ->). destruct ds as [|d ds]; [congruence|].
    assert (Hd : is_digit d = true) by (cbn in A3; apply andb_prop in A3; apply A3). destruct (digit_not_special d Hd) as (D1 & D2 & D3 & _).
    assert (Sp : span is_digit ((d :: ds) ++ sp2) = (d :: ds, sp2)).
    { apply CNum.span_all; [exact A3|]. destruct sp2 as [|c sp2]; [reflexivity|]. cbn in A2. apply andb_prop in A2. destruct A2 as [A2 _]. destruct (is_digit c) eqn:Q; [|reflexivity].
      destruct (digit_not_special c Q) as (X & _). congruence. }
    assert (Z : skip_space sp2 = []) by (rewrite <- (app_nil_r sp2); apply Cut; auto).
    rewrite Cut; [|exact A1|destruct Hs as [->|[->| ->]]; cbn; rewrite ?D1; reflexivity].
    assert (Ts : take_sign (sign ++ (d :: ds) ++ sp2) = (beqb sign ["-"%char], (d :: ds) ++ sp2)).
    { destruct Hs as [->|[->| ->]]; cbn [app take_sign]; try reflexivity. rewrite D2, D3. reflexivity. }
    rewrite Ts, Sp, Z. reflexivity.
Qed.
Print Assumptions C21_index_syntax.
Example C21_index_syntax_ok : is_index (s2b " +12 ") = Some 12. Proof. reflexivity. Qed.
(** In a list, a token that is no such text leads nowhere: looking it up throws and changes nothing. *)
Theorem C21_not_an_index st l vs c F k ks : tree st l (VList vs) c F -> is_index k = None ->
  pointer_lookup (rfc_text (k :: ks)) (RRef l) st = (Throw RuntimeError, st).
Proof.
  intros T N. assert (H := op_get st l (VList vs) c F (k :: ks) T). cbn [route elem_for] in H. rewrite N in H. destruct H as [e E].
  eapply rethrow_throw. rewrite do_op_text. apply bind_throw, E.
Qed.
Print Assumptions C21_not_an_index.
Example C21_not_an_index_ok : is_index (s2b "1x") = None /\ pointer_lookup (s2b "/1x") (RRef (LVar 1)) index_doc = (Throw RuntimeError, index_doc).
Proof. split; vm_compute; reflexivity. Qed.
(** A pointer that is not empty and does not begin with a slash is refused. *)
Theorem C21_no_slash c t r st : aeqb c "/" = false -> pointer_lookup (c :: t) r st = (Throw RuntimeError, st).
Proof. intros E. eapply rethrow_throw. unfold do_op, components. rewrite E. reflexivity. Qed.
Print Assumptions C21_no_slash.

(** ** Adding *)
(** Either the pointer names a place: the value is there, keys beside it and entries before it are as
    they were, entries behind have moved by one.  Or it names none: it throws and nothing has changed.
    Missing: an index behind the end of a list ([C21_add_behind_refuted]). *)
Theorem C21_add_exact_partial st l v c F ks x cx G : tree st l v c F -> lists_fit v ->
  owns (h_heap st) x cx G -> NoDup G -> apart F G -> outside l G ->
  (forall p, target v ks p -> exists st' v' c' F', pointer_add (rfc_text ks) (RRef l) cx st = (Ok tt, st') /\
     tree st' l v' c' F' /\ inserted v p x v' /\
     (forall l2 d, l2 <> l -> peek st l2 = Some d -> outside l2 F -> peek st' l2 = Some d)) /\
  ((forall p, ~ target v ks p) -> ~ beyond v ks -> Forall canonical ks -> pointer_add (rfc_text ks) (RRef l) cx st = (Throw RuntimeError, st)).
Proof.
  intros T L O N A OG. assert (K := owns_sorted _ _ _ _ (tr_owns _ _ _ _ _ T)). assert (H := op_add st l v c F ks x cx G T L O N A OG). split.
  - intros p Tg. destruct (target_spot _ _ _ Tg L) as [S R]. rewrite S in H. specialize (R x). destruct (radd v p x) as [v'|] eqn:Rd; [|congruence].
    destruct H as (r & old & st' & E & B & _). assert (EL := elsewhere _ _ _ _ _ _ _ _ T B). destruct B as (c' & F' & T' & _). exists st', v', c', F'.
    split; [apply rethrow_ok; rewrite do_op_text, (bind_ok _ _ _ _ _ E); reflexivity|]. split; [exact T'|]. split; [apply radd_inserted; auto|exact EL].
  - intros Nt Nb C. destruct (spot v ks) as [p|] eqn:S.
    + destruct (spot_target v ks p S C); [destruct (Nt p)|]; tauto.
    + destruct H as [e E]. eapply rethrow_throw. rewrite do_op_text. apply bind_throw, E.
Qed.
Print Assumptions C21_add_exact_partial.

(** Adding behind the end of a list is undefined. *)
Theorem C21_add_behind st l v c F ks x cx G : tree st l v c F -> lists_fit v -> Forall canonical ks ->
  owns (h_heap st) x cx G -> NoDup G -> apart F G -> outside l G -> beyond v ks -> pointer_add (rfc_text ks) (RRef l) cx st = (UB, st).
Proof.
  intros T L C O N A OG (ks0 & q & vs & i & -> & Lc & Li). assert (H := op_add st l v c F (ks0 ++ [dec_of_N i]) x cx G T L O N A OG).
  destruct (locates_route _ _ _ _ Lc L) as [R V]. rewrite spot_last, R, V in H. cbn [place_for] in H. rewrite not_dash in H.
  apply Forall_app in C. destruct C as [_ C]. inversion C as [|? ? Ci _]; subst. unfold canonical in Ci.
  destruct (is_index (dec_of_N i)) as [j|] eqn:J.
  - destruct Ci as [Ej _]. assert (i = j). { destruct (dec_of_N_spec i) as (V1 & _), (dec_of_N_spec j) as (V2 & _). congruence. } subst j.
    rewrite radd_last, V in H. cbn [rinsert] in H. destruct (Nat.leb_spec (N.to_nat i) (List.length vs)); [lia|].
    apply rethrow_ub. rewrite do_op_text. apply bind_ub, H.
  - exfalso. destruct (N.lt_ge_cases i (2^64)) as [B|B]; [rewrite is_index_dec in J by auto; discriminate|].
    clear -J. destruct (dec_of_N_spec i) as (_ & D & Ne & _). unfold is_index in J. rewrite c_str_digits in J by auto.
    destruct (dec_of_N i) as [|c s] eqn:E; [congruence|]. assert (D' := D). cbn in D'. apply andb_prop in D'. destruct D' as [Dc _].
    rewrite skip_space_digit, take_sign_digit, span_all in J by auto. cbn in J. discriminate.
Qed.
Print Assumptions C21_add_behind.
Theorem C21_add_behind_refuted : exists st l v c F, tree st l v c F /\ lists_fit v /\ pointer_add (rfc_text [dec_of_N 3]) (RRef l) (CInt 9) st = (UB, st).
Proof.
  exists index_doc, (LVar 1), (VList [VInt 5; VInt 6]), (CList 0), [0%nat]. split; [|split].
  - split; try exact I; [reflexivity| |repeat constructor; cbn; tauto]. apply owns_VList. exists [CInt 5; CInt 6], [[]; []]. cbn. repeat split; auto.
  - intros [|[|i] q] vs A; try discriminate; cbn in A; [injection A as <-; cbn; lia|].
    destruct (N.to_nat i) as [|[|n]]; cbn in A; try (destruct q as [|[|] q]; discriminate). destruct n; discriminate.
  - vm_compute. reflexivity.
Qed.
Print Assumptions C21_add_behind_refuted.
Example C21_behind_demo : tree index_doc (LVar 1) (VList [VInt 5; VInt 6]) (CList 0) [0%nat] /\ beyond (VList [VInt 5; VInt 6]) [s2b "3"] /\
  canonical (s2b "3") /\ pointer_add (s2b "/3") (RRef (LVar 1)) (CInt 9) index_doc = (UB, index_doc).
Proof.
  split; [|split; [|split]].
  - split; try exact I; [reflexivity| |repeat constructor; cbn; tauto]. apply owns_VList. exists [CInt 5; CInt 6], [[]; []]. cbn. repeat split; auto.
  - exists [], [], [VInt 5; VInt 6], 3. split; [reflexivity|]. split; [constructor|cbn; lia].
  - vm_compute. auto.
  - vm_compute. reflexivity.
Qed.

(** ** Removing *)
(** A key is removed and nothing else; the whole document becomes null.  A pointer to nothing throws
    and changes nothing.
    Missing: the entries of lists, which cannot be removed ([C21_remove_entry_refuted]). *)
Theorem C21_remove_exact_partial st l v c F ks : tree st l v c F -> lists_fit v ->
  (forall p w, locates v ks p w -> in_list v p = false -> exists st' v' c' F', pointer_remove (rfc_text ks) (RRef l) st = (Ok tt, st') /\
     tree st' l v' c' F' /\ deleted v p v' /\
     (forall l2 d, l2 <> l -> peek st l2 = Some d -> outside l2 F -> peek st' l2 = Some d)) /\
  ((forall p w, ~ locates v ks p w) -> Forall canonical ks -> pointer_remove (rfc_text ks) (RRef l) st = (Throw RuntimeError, st)).
Proof.
  intros T L. assert (K := owns_sorted _ _ _ _ (tr_owns _ _ _ _ _ T)). assert (H := op_remove st l v c F ks T). split.
  - intros p w Lc NL. destruct (locates_route _ _ _ _ Lc L) as [R A]. rewrite R, NL in H.
    destruct H as (w' & v' & cw & Fw & c' & F' & r & st' & A' & Rm & E & Tu & _). exists st', v', c', F'.
    split; [apply rethrow_ok; rewrite do_op_text, (bind_ok _ _ _ _ _ E); reflexivity|]. split; [exact (proj1 Tu)|]. split; [apply rremove_deleted; auto|].
    apply (elsewhere st l v c F [] st' v' T). exists c', F'. exact Tu.
  - intros Nl C. destruct (route v ks) as [p|] eqn:R.
    + destruct (route_locates ks v p R C) as [w Lw]. destruct (Nl p w Lw).
    + destruct H as [e E]. eapply rethrow_throw. rewrite do_op_text. apply bind_throw, E.
Qed.
Print Assumptions C21_remove_exact_partial.
(** No entry of any list can be removed: it throws, and nothing changes. *)
Theorem C21_remove_entry_throws st l v c F ks p w : tree st l v c F -> lists_fit v -> locates v ks p w -> in_list v p = true ->
  pointer_remove (rfc_text ks) (RRef l) st = (Throw RuntimeError, st).
Proof.
  intros T L Lc IL. assert (H := op_remove st l v c F ks T). destruct (locates_route _ _ _ _ Lc L) as [R A]. rewrite R, IL in H.
  destruct H as [e E]. eapply rethrow_throw. rewrite do_op_text. apply bind_throw, E.
Qed.
Print Assumptions C21_remove_entry_throws.
Theorem C21_remove_entry_refuted : exists p, vat (VList [VInt 5; VInt 6]) p = Some (VInt 5) /\
  pointer_remove (rfc_pointer p) (RRef (LVar 1)) index_doc = (Throw RuntimeError, index_doc).
Proof. exists [PIdx 0]. split; [reflexivity|]. vm_compute. reflexivity. Qed.
Print Assumptions C21_remove_entry_refuted.

(** ** Replacing *)
Theorem C21_replace_exact st l v c F ks x cx G : tree st l v c F -> lists_fit v -> owns (h_heap st) x cx G -> NoDup G -> apart F G -> outside l G ->
  (forall p w, locates v ks p w -> exists st' v' c' F', pointer_replace (rfc_text ks) (RRef l) cx st = (Ok tt, st') /\
     tree st' l v' c' F' /\ replaced v p x v' /\
     (forall l2 d, l2 <> l -> peek st l2 = Some d -> outside l2 F -> peek st' l2 = Some d)) /\
  ((forall p w, ~ locates v ks p w) -> Forall canonical ks -> pointer_replace (rfc_text ks) (RRef l) cx st = (Throw RuntimeError, st)).
Proof.
  intros T L O N A OG. assert (K := owns_sorted _ _ _ _ (tr_owns _ _ _ _ _ T)). assert (H := op_get st l v c F ks T). split.
  - intros p w Lc. destruct (locates_route _ _ _ _ Lc L) as [R V]. rewrite R in H. destruct H as (l' & w' & cw & Fw & V' & Tw & _ & Gp & E).
    destruct (op_put st l v c F p w x cx G T V O N A OG) as (l2 & cw2 & st' & v' & Gp2 & P2 & Es & Ev & B & _).
    assert (EL := elsewhere _ _ _ _ _ _ _ _ T B). destruct B as (c' & F' & T' & _). exists st', v', c', F'. split.
    + apply rethrow_ok. rewrite do_op_text, (bind_ok _ _ _ _ _ E). cbn [o_ref o_path]. rewrite (bind_ok _ _ _ _ _ (exists_rref l' st)). cbn [resolve_create].
      unfold bind. cbn [ret]. rewrite (set_path_get p l l2 cx st (Gp2 false)). exact Es.
    + split; [exact T'|]. split; [eapply vset_replaced; eauto|exact EL].
  - intros Nl C. destruct (route v ks) as [p|] eqn:R.
    + destruct (route_locates ks v p R C) as [w Lw]. destruct (Nl p w Lw).
    + destruct H as [e E]. eapply rethrow_throw. rewrite do_op_text. apply bind_throw, E.
Qed.
Print Assumptions C21_replace_exact.

(** ** Moving *)
(** What removing and then adding gives; when the new place does not exist, the value is put back: the
    program is in the state it was in. *)
Lemma put_back st l v1 c1 F1 v p cw : tree st l v1 c1 F1 -> vsorted v -> deleted v p v1 -> set_path p l cw st = undo_one (RRef l) (UAdd p cw) st.
Proof.
  intros T K D. destruct (list_cases p) as [->|(q & e & ->)]; [reflexivity|].
  unfold deleted in D. destruct (q ++ [e]) as [|e0 q0] eqn:Q; [destruct q; discriminate|]. rewrite <- Q in *. rewrite removelast_last, last_last in D.
  destruct D as [_ D]. destruct e as [k|]; [|destruct D]. destruct D as (m & m' & _ & W' & Hk).
  assert (Gt := get_path_tree q st l v1 c1 F1 T). rewrite W' in Gt. destruct Gt as (l' & c' & F' & G & T' & _).
  assert (Hn : vchild (VMap m') (PKey k) = None).
  { specialize (Hk k []). rewrite beqb_refl, (vat_mid _ _ _ _ W') in Hk. cbn [vat] in Hk. destruct (vchild (VMap m') (PKey k)); [discriminate|auto]. }
  rewrite (set_path_key q l l' k cw st G (get_elem_none _ _ _ _ _ _ (tr_peek _ _ _ _ _ T') (tr_owns _ _ _ _ _ T') Hn)).
  rewrite Q. cbn [undo_one]. rewrite <- Q. rewrite removelast_last, last_last. rewrite (bind_ok _ _ _ _ _ (at_path_ref _ _ _ _ G)).
  rewrite (bind_ok _ _ _ _ _ (type_rref _ _ _ (tr_peek _ _ _ _ _ T'))). assert (O := tr_owns _ _ _ _ _ T'). destruct c'; try (exfalso; exact O). reflexivity.
Qed.
Theorem C21_move_exact_partial st l v c F src dst p w : tree st l v c F -> lists_fit v -> locates v src p w -> in_list v p = false ->
  exists v1, deleted v p v1 /\
    (forall p2, target v1 dst p2 -> exists st' v' c' F', pointer_move (rfc_text src) (rfc_text dst) (RRef l) st = (Ok tt, st') /\
       tree st' l v' c' F' /\ inserted v1 p2 w v' /\
       (forall l2 d, l2 <> l -> peek st l2 = Some d -> outside l2 F -> peek st' l2 = Some d)) /\
    ((forall p2, ~ target v1 dst p2) -> ~ beyond v1 dst -> Forall canonical dst ->
       pointer_move (rfc_text src) (rfc_text dst) (RRef l) st = (Throw RuntimeError, st)).
Proof.
  intros T L Lc NL. assert (K := owns_sorted _ _ _ _ (tr_owns _ _ _ _ _ T)). assert (H := op_remove st l v c F src T).
  destruct (locates_route _ _ _ _ Lc L) as [R V]. rewrite R, NL in H.
  destruct H as (w' & v1 & cw & Fw & c1 & F1 & r & st1 & V' & Rm & E & Tu & Ow & Nw & Ap & Iw & Un). rewrite V in V'. injection V' as <-.
  assert (D := rremove_deleted v p v1 K Rm NL). exists v1. split; [exact D|]. assert (L1 := lists_fit_remove v p v1 L K Rm NL). assert (T1 := proj1 Tu).
  assert (K1 := owns_sorted _ _ _ _ (tr_owns _ _ _ _ _ T1)). assert (OLw : outside l Fw) by (eapply outside_incl; [apply (tr_out _ _ _ _ _ T)|exact Iw]).
  assert (H := op_add st1 l v1 c1 F1 dst w cw Fw T1 L1 Ow Nw Ap OLw). split.
  - intros p2 Tg. destruct (target_spot _ _ _ Tg L1) as [S Rd]. rewrite S in H. specialize (Rd w). destruct (radd v1 p2 w) as [v'|] eqn:Ra; [|congruence].
    destruct H as (r2 & old & st' & E2 & (c' & F' & Tu2) & _). exists st', v', c', F'. split; [|split; [exact (proj1 Tu2)|split; [apply radd_inserted; auto|]]].
    + apply rethrow_ok. rewrite do_op_text, (bind_ok _ _ _ _ _ E). cbn [o_value o_path]. rewrite do_op_text, (bind_ok _ _ _ _ _ (attempt_ok _ _ _ _ E2)). reflexivity.
    + apply (elsewhere st l v c F Fw st' v' T). exists c', F'. eapply turns_trans; eauto.
  - intros Nt Nb C. destruct (spot v1 dst) as [p2|] eqn:S; [destruct (spot_target v1 dst p2 S C); [destruct (Nt p2)|]; tauto|].
    destruct H as [e E2]. eapply rethrow_throw. rewrite do_op_text, (bind_ok _ _ _ _ _ E). cbn [o_value o_path]. rewrite do_op_text, (bind_ok _ _ _ _ _ (attempt_throw _ _ _ _ E2)).
    cbn [resolve_create]. rewrite (bind_ok _ _ _ tt st); [reflexivity|]. unfold bind. cbn [ret]. rewrite (put_back st1 l v1 c1 F1 v p cw T1 K D). exact Un.
Qed.
Print Assumptions C21_move_exact_partial.
Theorem C21_move_from_nothing st l v c F src dst : tree st l v c F -> lists_fit v -> (forall p w, locates v src p w -> in_list v p = true) -> Forall canonical src ->
  pointer_move (rfc_text src) (rfc_text dst) (RRef l) st = (Throw RuntimeError, st).
Proof.
  intros T L Nl C. assert (H := op_remove st l v c F src T). destruct (route v src) as [p|] eqn:R.
  - destruct (route_locates src v p R C) as [w Lw]. rewrite (Nl p w Lw) in H. destruct H as [e E]. eapply rethrow_throw. rewrite !do_op_text. apply bind_throw, E.
  - destruct H as [e E]. eapply rethrow_throw. rewrite !do_op_text. apply bind_throw, E.
Qed.
Print Assumptions C21_move_from_nothing.

(** ** Copying *)
(** The value added is a copy with storages of its own: the document is a tree again.  When the copy
    cannot be added, everything that was there is as it was; the storages of the copy are new.
    Blobs in the copied part are left out: a copied blob shares its bytes or loses them. *)
Lemma extends_apart st st1 l v c F G : tree st l v c F -> extends st st1 -> fresh_in st st1 G -> apart F G /\ outside l G.
Proof.
  intros T X Fr. split.
  - intros s J J'. apply Fr in J'. assert (s < hlen st)%nat by (unfold hlen; eapply owns_lt; [apply (tr_owns _ _ _ _ _ T)|exact J]). lia.
  - assert (P := tr_peek _ _ _ _ _ T). destruct l as [x|s i|s k]; cbn [outside]; auto; intros J; apply Fr in J; cbn [peek] in P;
      (destruct (nth_error (h_heap st) s) eqn:Es; [|discriminate]); assert (s < hlen st)%nat by (unfold hlen; apply nth_error_Some; congruence); lia.
Qed.
Theorem C21_copy_exact_partial st l v c F src dst p w fuel : tree st l v c F -> lists_fit v -> locates v src p w -> noblob w -> (vdepth w <= fuel)%nat ->
  (forall p2, target v dst p2 -> exists st' v' c' F', pointer_copy fuel (rfc_text src) (rfc_text dst) (RRef l) st = (Ok tt, st') /\
     tree st' l v' c' F' /\ inserted v p2 w v' /\
     (forall l2 d, l2 <> l -> peek st l2 = Some d -> outside l2 F -> peek st' l2 = Some d)) /\
  ((forall p2, ~ target v dst p2) -> ~ beyond v dst -> Forall canonical dst ->
     exists st', pointer_copy fuel (rfc_text src) (rfc_text dst) (RRef l) st = (Throw RuntimeError, st') /\ tree st' l v c F /\
       (forall l2 d, peek st l2 = Some d -> peek st' l2 = Some d)).
Proof.
  intros T L Lc NB Fu. assert (K := owns_sorted _ _ _ _ (tr_owns _ _ _ _ _ T)). assert (H := op_get st l v c F src T).
  destruct (locates_route _ _ _ _ Lc L) as [R V]. rewrite R in H. destruct H as (l' & w' & cw & Fw & V' & Tw & _ & _ & E). rewrite V in V'. injection V' as <-.
  destruct (copy_tree w cw Fw fuel st (tr_owns _ _ _ _ _ Tw) NB Fu) as (cx & st1 & G & Ec & X & Ox & NG & Fr).
  destruct (extends_apart st st1 l v c F G T X Fr) as [A OG]. assert (T1 := extends_tree _ _ _ _ _ _ X T).
  assert (Run : forall r st2, (let* _ := do_op (rfc_text dst) (RRef l) (PAdd cx) in ret tt) st1 = (r, st2) ->
    (let* o := do_op (rfc_text src) (RRef l) PGet in let* ex := exists_ref (o_ref o) in
      if ex then let* v := read_ref (o_ref o) in let* c := copy fuel v in do_op (rfc_text dst) (RRef l) (PAdd c);; ret tt else throw RuntimeError) st = (r, st2)).
  { intros r st2 Er. rewrite do_op_text at 1. rewrite (bind_ok _ _ _ _ _ E). cbn [o_ref]. rewrite (bind_ok _ _ _ _ _ (exists_rref l' st)).
    rewrite (bind_ok _ _ _ _ _ (read_rref _ _ _ (tr_peek _ _ _ _ _ Tw))), (bind_ok _ _ _ _ _ Ec). exact Er. }
  assert (H := op_add st1 l v c F dst w cx G T1 L Ox NG A OG). split.
  - intros p2 Tg. destruct (target_spot _ _ _ Tg L) as [S Rd]. rewrite S in H. specialize (Rd w). destruct (radd v p2 w) as [v'|] eqn:Ra; [|congruence].
    destruct H as (r2 & old & st' & E2 & B & _). assert (EL := elsewhere _ _ _ _ _ _ _ _ T1 B). destruct B as (c' & F' & T' & _). exists st', v', c', F'.
    split; [|split; [exact T'|split; [apply radd_inserted; auto|]]].
    + apply rethrow_ok. apply Run. rewrite do_op_text, (bind_ok _ _ _ _ _ E2). reflexivity.
    + intros l2 d Ne P2 O2. apply EL; auto. eapply extends_peek; eauto.
  - intros Nt Nb C. destruct (spot v dst) as [p2|] eqn:S; [destruct (spot_target v dst p2 S C); [destruct (Nt p2)|]; tauto|].
    destruct H as [e E2]. exists st1. split; [|split; [exact T1|intros l2 d P2; eapply extends_peek; eauto]].
    eapply rethrow_throw. apply Run. rewrite do_op_text. apply bind_throw, E2.
Qed.
Print Assumptions C21_copy_exact_partial.

(** ** The hypotheses are met *)
(** {"a": [1, 2], "b": null} of P_Elements.v. *)
Example C21_demo_fit : lists_fit doc.
Proof.
  intros q vs A. destruct q as [|[k|] q]; try discriminate. cbn [vat vchild doc mget] in A. destruct (beqb k ka) eqn:E.
  - destruct q as [|[|i] q]; try discriminate; cbn in A.
    + injection A as <-. cbn. lia.
    + destruct (N.to_nat i) as [|[|n]]; cbn in A; try (destruct q as [|[|] q]; discriminate). destruct n; discriminate.
  - destruct (beqb k kb); [|discriminate]. destruct q as [|[|] q]; discriminate.
Qed.
Example C21_demo_locates : locates doc [ka; s2b "1"] [PKey ka; PIdx 1] (VInt 2).
Proof. eapply loc_key; [reflexivity|]. change (s2b "1") with (dec_of_N 1). eapply loc_idx; [reflexivity|constructor]. Qed.
Example C21_demo_target : target doc [ka; s2b "1"] [PKey ka; PIdx 1] /\ target doc [ka; s2b "-"] [PKey ka; PIdx 2] /\ target doc [s2b "c/d"] [PKey (s2b "c/d")].
Proof.
  split; [|split].
  - change [ka; s2b "1"] with ([ka] ++ [dec_of_N 1]). apply tgt_idx with (q := [PKey ka]) (vs := [VInt 1; VInt 2]); [|cbn; lia]. eapply loc_key; [reflexivity|constructor].
  - change [ka; s2b "-"] with ([ka] ++ [s2b "-"]). apply (tgt_end doc [ka] [PKey ka] [VInt 1; VInt 2]). eapply loc_key; [reflexivity|constructor].
  - apply (tgt_key doc [] (s2b "c/d") [] [(ka, VList [VInt 1; VInt 2]); (kb, VNull)]). constructor.
Qed.
Example C21_demo_run : rfc_text [s2b "c/d"] = s2b "/c~1d" /\
  exists st1 st2 st3 st4 st5, pointer_add (s2b "/a/1") (RRef (LVar 0)) (CInt 9) doc_st = (Ok tt, st1) /\
    see st1 0 [PKey ka; PIdx 1] = Some (ShInt 9) /\ see st1 0 [PKey ka; PIdx 2] = Some (ShInt 2) /\
    pointer_copy 5 (s2b "/a") (s2b "/c~1d") (RRef (LVar 0)) st1 = (Ok tt, st2) /\ see st2 0 [PKey (s2b "c/d"); PIdx 0] = Some (ShInt 1) /\
    pointer_move (s2b "/b") (s2b "/a/-") (RRef (LVar 0)) st2 = (Ok tt, st3) /\ see st3 0 [PKey kb] = None /\ see st3 0 [PKey ka; PIdx 3] = Some ShNull /\
    pointer_replace (s2b "/a/0") (RRef (LVar 0)) (CInt 7) st3 = (Ok tt, st4) /\ see st4 0 [PKey ka; PIdx 0] = Some (ShInt 7) /\
    see st4 0 [PKey (s2b "c/d"); PIdx 0] = Some (ShInt 1) /\
    pointer_remove (s2b "/a") (RRef (LVar 0)) st4 = (Ok tt, st5) /\ see st5 0 [PKey ka] = None.
Proof.
  split; [reflexivity|]. do 5 eexists. repeat (split; [vm_compute; reflexivity|]). vm_compute. reflexivity.
Qed.
Example C21_demo_refused : pointer_move (s2b "/b") (s2b "/x/y") (RRef (LVar 0)) doc_st = (Throw RuntimeError, doc_st).
Proof. vm_compute. reflexivity. Qed.
