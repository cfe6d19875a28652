(** What the schema loader leaves alone, for any graph of Variants. *)
From Verif Require Import Base Float Value Blob Path Numeric Heap HeapProofs HeapSpec SharingProofs ValueOps HeapTree Uri Pointer Schema SchemaLoad.
Open Scope N_scope.

(** ** Reading only *)
Ltac pur1 := repeat first [apply pure_bind; [|intros ?] | apply pure_load | apply pure_get_storage | apply pure_ret
    | apply pure_fail | apply pure_get_list | apply pure_get_map | apply pure_get_str | apply pure_get_blob
    | match goal with |- pure_m (match ?x with _ => _ end) => destruct x end].
Lemma pure_text_at s k : pure_m (text_at s k).
Proof. unfold text_at. pur1. Qed.
Lemma pure_fold_m {A B} (f : B -> A -> M B) l : (forall b a, pure_m (f b a)) -> forall b, pure_m (fold_m f l b).
Proof. intros H. induction l as [|a l IH]; intros b; cbn [fold_m]; [apply pure_ret|]. apply pure_bind; auto. Qed.
Lemma pure_search fuel : forall m c uri, pure_m (search_trusted fuel m c uri).
Proof.
  induction fuel as [|f IH]; intros m c uri; cbn [search_trusted]; [apply pure_fail|].
  destruct c; try apply pure_ret. apply pure_bind; [apply pure_text_at|]. intros id. apply pure_bind; [apply pure_get_map|]. intros e.
  apply pure_fold_m. intros b [k c]. cbn [fst snd]. destruct (not_enum k); [|apply pure_ret]. destruct c; try apply pure_ret. apply IH.
Qed.
Lemma pure_map_m {A B} (f : A -> M B) l : (forall a, pure_m (f a)) -> pure_m (map_m f l).
Proof. intros H. induction l as [|a l IH]; cbn [map_m]; [apply pure_ret|]. apply pure_bind; auto. intros x. apply pure_bind; auto. intros y. apply pure_ret. Qed.
Lemma pure_read_out n : forall c, pure_m (read_out n c).
Proof.
  induction n as [|n IH]; intros c; cbn [read_out]; [apply pure_fail|]. destruct c; pur1; apply pure_map_m; auto.
  intros [k c]. cbn [snd]. apply pure_bind; auto. intros; apply pure_ret.
Qed.
Lemma pure_get_elem l e ch : pure_m (get_elem l e ch).
Proof. destruct e; cbn [get_elem]; [unfold get_key|unfold get_index]; unfold throw; pur1. Qed.
Lemma pure_get_path p : forall l ch, pure_m (get_path p l ch).
Proof.
  induction p as [|e p IH]; intros l ch; cbn [get_path]; [pur1|]. apply pure_bind; [apply pure_get_elem|]. intros [l'|].
  - destruct p; [apply pure_ret|apply IH].
  - destruct ch; [destruct e; apply pure_fail|apply pure_ret].
Qed.
Lemma pure_resolve_throw r : pure_m (resolve_throw r).
Proof. destruct r; cbn [resolve_throw]; [apply pure_ret|]. apply pure_bind; [apply pure_get_path|]. intros [l'|]; [apply pure_ret|apply pure_fail]. Qed.
Lemma pure_read_ref r : pure_m (read_ref r).
Proof. unfold read_ref. apply pure_bind; [apply pure_resolve_throw|]. intros; apply pure_load. Qed.
Lemma pure_resolve_check r : pure_m (resolve_check r).
Proof. destruct r; cbn [resolve_check]; [apply pure_ret|]. apply pure_get_path. Qed.
Lemma pure_exists_ref r : pure_m (exists_ref r).
Proof. unfold exists_ref. apply pure_bind; [apply pure_resolve_check|]. intros; apply pure_ret. Qed.
Lemma pure_type_ref r : pure_m (type_ref r).
Proof. unfold type_ref. apply pure_bind; [apply pure_read_ref|]. intros; apply pure_ret. Qed.
Lemma pure_at_elem r e : pure_m (at_elem r e).
Proof.
  unfold at_elem. apply pure_bind; [apply pure_resolve_check|]. intros [l|]; [|destruct r; apply pure_ret].
  destruct e; cbn [get_ref_elem]; [unfold get_ref_key, map_get_ref|unfold get_ref_index, list_get_ref]; unfold throw; pur1.
Qed.
Lemma pure_pget ks : forall r acc, pure_m (pointer_op ks r PGet acc).
Proof.
  induction ks as [|k ks IH]; intros r acc; cbn [pointer_op].
  - cbn [root_op]. apply pure_bind; [apply pure_read_ref|]. intros; apply pure_ret.
  - apply pure_bind; [apply pure_exists_ref|]. intros []; [|apply pure_fail]. apply pure_bind; [apply pure_type_ref|]. intros t. destruct t; try apply pure_fail.
    + destruct (match ks with [] => beqb k (s2b "-") | _ => false end).
      * unfold dash_op. apply pure_bind; [apply pure_resolve_throw|]. intros l'. apply pure_bind; [apply pure_size_of|]. intros; apply pure_fail.
      * destruct (is_index k); [|apply pure_fail]. destruct ks.
        { unfold list_op. apply pure_bind; [apply pure_at_elem|]. intros. apply pure_bind; [apply pure_read_ref|]. intros; apply pure_ret. }
        { apply pure_bind; [apply pure_at_elem|]. intros. apply IH. }
    + destruct ks.
      * unfold map_op. apply pure_bind; [apply pure_at_elem|]. intros. apply pure_bind; [apply pure_read_ref|]. intros; apply pure_ret.
      * apply pure_bind; [apply pure_at_elem|]. intros. apply IH.
Qed.
Lemma pure_lookup ptr r : pure_m (pointer_lookup ptr r).
Proof.
  intros st. unfold pointer_lookup, rethrow. assert (H : pure_m (let* o := do_op ptr r PGet in ret (o_ref o))).
  { apply pure_bind; [|intros; apply pure_ret]. unfold do_op. destruct (components ptr); [apply pure_pget|apply pure_fail]. }
  specialize (H st). destruct (bind _ _ st) as [[] st']; exact H.
Qed.
Lemma pure_local {A} c (f : loc -> M A) : (forall l, pure_m (f l)) -> pure_m (with_local c f).
Proof.
  intros H st. unfold with_local. specialize (H (LVar (List.length (h_vars st))) (HState (h_vars st ++ [c]) (h_heap st))).
  destruct (f _ _) as [r st']. cbn in *. subst st'. cbn. rewrite firstn_app, firstn_all, Nat.sub_diag. cbn. rewrite app_nil_r. destruct st; reflexivity.
Qed.
Lemma pure_fragment c ptr : pure_m (fragment_of c ptr).
Proof. apply pure_local. intros l. apply pure_bind; [apply pure_lookup|]. intros; apply pure_read_ref. Qed.
Lemma pure_get_schema ld : forall uri, pure_m (get_schema ld uri).
Proof.
  induction ld as [|own up IH]; intros uri; cbn [get_schema]; [apply pure_fail|]. destruct (mget uri own); [apply pure_ret|].
  destruct (base_and_fragment uri) as [b fr]. destruct (mget b own); [apply pure_fragment|]. destruct up; [apply pure_fail|apply IH].
Qed.

(** ** Writing stays in what the schema leads to *)
Section Side.
  Variable V : nat -> Prop.
  Notation stable := (stable V).
  Notation conf := (conf V).
  Notation okl := (okl V).
  Notation okv := (okv V).
  Ltac stab := cbv beta; repeat match goal with |- HeapProofs.stable _ (andP _ _) => apply stable_and end;
    lazymatch goal with
    | |- HeapProofs.stable _ T => apply stable_T
    | |- HeapProofs.stable _ (okc _) => apply stable_okc
    | |- HeapProofs.stable _ (HeapProofs.okl _ _) => apply stable_okl
    | |- HeapProofs.stable _ (oks _ _) => apply stable_oks
    | |- HeapProofs.stable _ (allc _) => apply stable_allc
    | |- HeapProofs.stable _ (HeapProofs.okv _ _) => apply stable_okv
    | |- HeapProofs.stable _ (okm _) => apply stable_okm
    | |- HeapProofs.stable _ _ => assumption
    end.

  Lemma conf_put_text (P : pre) s k u : stable P -> (forall S st, P S st -> oks s KSMap S st) -> conf P (put_text s k u) (fun _ => T).
  Proof.
    intros SP H. unfold put_text. eapply conf_bind; [stab|apply (conf_alloc V P (StStr u))|intros n].
    - intros S st _. split; [exact Logic.I|intros c []].
    - apply conf_assign; [apply stable_and; [exact SP|apply (stable_oks V n KSStr)]|]. intros S st [A B]. split; [apply (H _ _ A)|]. exact B.
  Qed.
  Lemma conf_each_m {A} (P : pre) (f : A -> M unit) l : stable P -> (forall a, In a l -> conf P (f a) (fun _ => T)) -> conf P (each_m f l) (fun _ => T).
  Proof.
    intros SP H. induction l as [|a l IH]; cbn [each_m]; [apply conf_ret; intros; exact Logic.I|].
    eapply conf_bind; [exact SP|apply H; left; reflexivity|intros u]. eapply conf_weaken; [apply IH; intros; apply H; right; assumption| |auto]. intros S st [X _]. exact X.
  Qed.
  Lemma conf_norm fuel : forall (P : pre) l uri, stable P -> (forall S st, P S st -> okl l S st) -> conf P (norm_schema fuel l uri) (fun _ => T).
  Proof.
    induction fuel as [|f IH]; intros P l uri SP H; cbn [norm_schema]; [apply conf_fail; discriminate|].
    eapply conf_bind; [exact SP|apply conf_load; exact H|intros c]. set (P1 := andP P (okc c)). assert (S1 : stable P1) by (unfold P1; stab).
    destruct c; try (apply conf_ret; intros; exact Logic.I).
    - eapply conf_bind; [exact S1|apply conf_get_list; [|exact S1]; intros S st [_ X]; exact X|intros cs]. assert (S2 : stable (andP P1 (allc cs))) by stab.
      apply conf_each_m; [exact S2|]. intros i _. apply IH; [exact S2|]. intros S st [[_ X] _]. apply X.
    - assert (K : forall S st, P1 S st -> oks s KSMap S st) by (intros S st [_ X]; exact X).
      eapply conf_bind; [exact S1|apply conf_pure, pure_text_at|intros id]. eapply conf_bind; [stab| |intros base].
      { instantiate (1 := fun _ => T). destruct id as [t|].
        - eapply conf_bind; [stab|apply conf_put_text; [stab|]|intros u; apply conf_ret; intros; exact Logic.I]. intros S st [X _]. apply K, X.
        - apply conf_ret; intros; exact Logic.I. }
      eapply conf_bind; [stab|apply conf_pure, pure_text_at|intros r]. destruct r as [t|].
      + apply conf_put_text; [stab|]. intros S st [[[X _] _] _]. apply K, X.
      + eapply conf_bind; [stab|apply conf_get_map; [|stab]; intros S st [[[X _] _] _]; apply K, X|intros m].
        apply conf_each_m; [stab|]. intros k _. apply IH; [stab|]. intros S st [[[[[_ X] _] _] _] _]. apply X.
  Qed.
  Lemma conf_read_ref (P : pre) r : stable P -> (forall S st, P S st -> okv r S st) -> conf P (read_ref r) (fun c => okc c).
  Proof. intros SP H. unfold read_ref. eapply conf_bind; [exact SP|apply conf_resolve_throw; auto|intros l]. apply conf_load. intros S st [_ X]. exact X. Qed.
  Lemma conf_pget ks : forall (P : pre) r acc, stable P -> (forall S st, P S st -> okv r S st) ->
    conf P (pointer_op ks r PGet acc) (fun o => okv (o_ref o)).
  Proof.
    assert (G : forall (P : pre) r e acc, stable P -> (forall S st, P S st -> okv r S st) ->
      conf P (let* x := at_elem r e in let* v := read_ref x in ret (OpRes x acc v None true)) (fun o => okv (o_ref o))).
    { intros P r e acc SP H. eapply conf_bind; [exact SP|apply conf_at_elem; auto|intros x]. eapply conf_bind; [stab|apply conf_read_ref; [stab|]|intros v].
      - intros S st [_ X]. exact X.
      - apply conf_ret. intros S st [[_ X] _]. exact X. }
    induction ks as [|k ks IH]; intros P r acc SP H; cbn [pointer_op].
    - cbn [root_op]. eapply conf_bind; [exact SP|apply conf_read_ref; auto|intros v]. apply conf_ret. intros S st [X _]. apply H, X.
    - eapply conf_bind; [exact SP|apply conf_pure, pure_exists_ref|intros ex]. destruct ex; [|apply conf_fail; discriminate].
      eapply conf_bind; [stab|apply conf_pure, pure_type_ref|intros t]. assert (K : forall S st, andP (andP P T) T S st -> okv r S st) by (intros S st [[X _] _]; apply H, X).
      assert (S1 : stable (andP (andP P T) T)) by stab.
      destruct t; try (apply conf_fail; discriminate).
      + destruct (match ks with [] => beqb k (s2b "-") | _ => false end).
        * unfold dash_op. eapply conf_bind; [exact S1|apply conf_pure, pure_resolve_throw|intros l']. eapply conf_bind; [stab|apply conf_pure, pure_size_of|intros n]. apply conf_fail; discriminate.
        * destruct (is_index k); [|apply conf_fail; discriminate]. destruct ks.
          { unfold list_op. apply G; auto. }
          { eapply conf_bind; [exact S1|apply conf_at_elem; auto|intros x]. apply IH; [stab|]. intros S st [_ X]. exact X. }
      + destruct ks.
        * unfold map_op. apply G; auto.
        * eapply conf_bind; [exact S1|apply conf_at_elem; auto|intros x]. apply IH; [stab|]. intros S st [_ X]. exact X.
  Qed.
  Lemma conf_lookup (P : pre) ptr r : stable P -> (forall S st, P S st -> okv r S st) -> conf P (pointer_lookup ptr r) (fun x => okv x).
  Proof.
    intros SP H S st x st' C HP E. unfold pointer_lookup, rethrow in E.
    assert (K : conf P (let* o := do_op ptr r PGet in ret (o_ref o)) (fun x => okv x)).
    { eapply conf_bind; [exact SP| |intros o; apply conf_ret; intros S0 st0 [_ X]; exact X]. unfold do_op. destruct (components ptr); [apply conf_pget; auto|apply conf_fail; discriminate]. }
    destruct (bind _ _ st) as [x0 st0] eqn:E0. destruct (K S st x0 st0 C HP E0) as (S' & Ev & Q).
    exists S'. destruct x0; injection E as <- <-; (split; [exact Ev|]); try discriminate. exact Q.
  Qed.
End Side.

(** Strings and blobs are never modified. *)
Definition keeps {A} (m : M A) : Prop := forall st s x, nth_error (h_heap st) s = Some x -> ~ container x -> nth_error (h_heap (snd (m st))) s = Some x.
Lemma keeps_pure {A} (m : M A) : pure_m m -> keeps m.
Proof. intros H st s x E _. rewrite H. exact E. Qed.
Lemma keeps_bind {A B} (m : M A) (f : A -> M B) : keeps m -> (forall a, keeps (f a)) -> keeps (bind m f).
Proof.
  intros H K st s x E N. unfold bind. specialize (H st s x E N). destruct (m st) as [r st1]. cbn in H. destruct r; auto. apply K; auto.
Qed.
Lemma keeps_alloc x : keeps (alloc x).
Proof. intros st s y E N. cbn. rewrite nth_error_app1; auto. apply nth_error_Some. congruence. Qed.
Lemma keeps_store l c : keeps (store l c).
Proof.
  intros st s x E N. destruct (peek st l) as [c0|] eqn:P; [|unfold store; rewrite P; exact E].
  destruct (store_ok st l c0 c P) as (st' & Es & _ & H & _). rewrite Es. cbn. rewrite H, E. apply patch_keep, N.
Qed.
Lemma keeps_put_text s k u : keeps (put_text s k u).
Proof. apply keeps_bind; [apply keeps_alloc|]. intros n. apply keeps_store. Qed.
Lemma keeps_each {A} (f : A -> M unit) l : (forall a, keeps (f a)) -> keeps (each_m f l).
Proof. intros H. induction l as [|a l IH]; cbn [each_m]; [apply keeps_pure, pure_ret|]. apply keeps_bind; auto. Qed.
Lemma keeps_norm fuel : forall l uri, keeps (norm_schema fuel l uri).
Proof.
  induction fuel as [|f IH]; intros l uri; cbn [norm_schema]; [apply keeps_pure, pure_fail|].
  apply keeps_bind; [apply keeps_pure, pure_load|]. intros c. destruct c; try apply keeps_pure, pure_ret.
  - apply keeps_bind; [apply keeps_pure, pure_get_list|]. intros cs. apply keeps_each. intros; apply IH.
  - apply keeps_bind; [apply keeps_pure, pure_text_at|]. intros id. apply keeps_bind.
    + destruct id; [|apply keeps_pure, pure_ret]. apply keeps_bind; [apply keeps_put_text|]. intros; apply keeps_pure, pure_ret.
    + intros base. apply keeps_bind; [apply keeps_pure, pure_text_at|]. intros [t|]; [apply keeps_put_text|].
      apply keeps_bind; [apply keeps_pure, pure_get_map|]. intros m. apply keeps_each. intros; apply IH.
Qed.

(** ** A local Variant *)
Lemma nth_last {A} (l : list A) x : nth_error (l ++ [x]) (List.length l) = Some x.
Proof. rewrite nth_error_app2, Nat.sub_diag; auto. Qed.
Lemma lput_last {A} (l : list A) x y : lput (l ++ [x]) (List.length l) y = l ++ [y].
Proof. induction l; cbn; auto. rewrite IHl. reflexivity. Qed.
Lemma firstn_last {A} (l : list A) x : firstn (List.length l) (l ++ [x]) = l.
Proof. rewrite firstn_app, firstn_all, Nat.sub_diag. cbn. apply app_nil_r. Qed.
Lemma nth_ext_eq {A} (l l' : list A) : List.length l = List.length l' -> (forall i, nth_error l i = nth_error l' i) -> l = l'.
Proof.
  revert l'; induction l as [|a l IH]; intros [|b l'] L H; cbn in L; try lia; auto. f_equal; [specialize (H 0%nat); cbn in H; congruence|].
  apply IH; [lia|]. intros i. apply (H (S i)).
Qed.
Lemma closed_local S st c : closed S none st -> inside S st c ->
  closed S (fun x => x = List.length (h_vars st)) (HState (h_vars st ++ [c]) (h_heap st)).
Proof.
  intros [A B D E] I. split; auto. intros x c0 -> H. cbn in H. rewrite nth_last in H. injection H as <-. exact I.
Qed.
Lemma evolve_local S st c S' st1 : evolve (fun x => x = List.length (h_vars st)) S (HState (h_vars st ++ [c]) (h_heap st)) S' st1 ->
  evolve none S st S' (HState (firstn (List.length (h_vars st)) (h_vars st1)) (h_heap st1)) /\
  firstn (List.length (h_vars st)) (h_vars st1) = h_vars st.
Proof.
  intros [A B C D E F G]. cbn in *. assert (V : firstn (List.length (h_vars st)) (h_vars st1) = h_vars st).
  { rewrite app_length in E. cbn in E. apply nth_ext_eq; [rewrite firstn_length; lia|]. intros i.
    destruct (Nat.lt_ge_cases i (List.length (h_vars st))) as [H|H].
    - rewrite <- (firstn_skipn (List.length (h_vars st)) (h_vars st1)) in D. specialize (D i). rewrite nth_error_app1 in D by (rewrite firstn_length; lia).
      rewrite nth_error_app1 in D by auto. apply D. lia.
    - rewrite (proj2 (nth_error_None _ _)) by (rewrite firstn_length; lia). symmetry. apply nth_error_None. auto. }
  rewrite V. split; auto. split; cbn; auto. destruct C as [C1 C2 C3 C4]. split; auto. intros x c0 [].
Qed.
Lemma local_norm S st c fuel uri r st' : closed S none st -> inside S st c -> with_local c (fun l => norm_schema fuel l uri) st = (r, st') ->
  exists S', evolve none S st S' st' /\ h_vars st' = h_vars st /\ forall s x, nth_error (h_heap st) s = Some x -> ~ container x -> nth_error (h_heap st') s = Some x.
Proof.
  intros C I E. unfold with_local in E. destruct (norm_schema _ _ _ _) as [r1 st1] eqn:N. injection E as <- <-.
  destruct (conf_norm (fun x => x = List.length (h_vars st)) fuel T (LVar (List.length (h_vars st))) uri (stable_T _)) with (2 := closed_local S st c C I) (4 := N) as (S' & Ev & _).
  - intros S0 st0 _. reflexivity.
  - exact Logic.I.
  - exists S'. destruct (evolve_local _ _ _ _ _ Ev) as [Ev' V]. split; [exact Ev'|]. split; [exact V|]. intros s x Es Nx. cbn.
    assert (K := keeps_norm fuel (LVar (List.length (h_vars st))) uri (HState (h_vars st ++ [c]) (h_heap st)) s x Es Nx). rewrite N in K. exact K.
Qed.
Lemma fragment_inside S st c ptr d st' : closed S none st -> inside S st c -> fragment_of c ptr st = (Ok d, st') -> inside S st d.
Proof.
  intros C I E. assert (st' = st) as ->. { assert (H := pure_fragment c ptr st). rewrite E in H. exact H. }
  unfold fragment_of, with_local in E. destruct (bind _ _ _) as [r1 st1] eqn:N. injection E as -> E2.
  assert (K : conf (fun x => x = List.length (h_vars st)) T (let* r := pointer_lookup ptr (RRef (LVar (List.length (h_vars st)))) in read_ref r) (fun c => okc c)).
  { eapply conf_bind; [apply stable_T|apply conf_lookup; [apply stable_T|intros; reflexivity]|intros x].
    apply conf_read_ref; [apply stable_and; [apply stable_T|apply stable_okv]|]. intros S0 st0 [_ X]. exact X. }
  destruct (K S _ _ _ (closed_local S st c C I) Logic.I N) as (S' & Ev & Q). specialize (Q _ eq_refl). unfold okc in Q.
  assert (P : pure_m (let* r := pointer_lookup ptr (RRef (LVar (List.length (h_vars st)))) in read_ref r)) by (apply pure_bind; [apply pure_lookup|intros; apply pure_read_ref]).
  specialize (P (HState (h_vars st ++ [c]) (h_heap st))). rewrite N in P. cbn in P. subst st1. eapply inside_mono; [| |exact Q]; auto.
  intros s Hs. apply (ev_set _ _ _ _ _ Ev) in Hs. cbn in Hs. destruct Hs; auto; lia.
Qed.

(** The Variants of a loader. *)
Definition all_of (ld : loader) (P : cell -> Prop) : Prop := forall own k c, In own ld -> mget k own = Some c -> P c.
Lemma get_schema_inside S ld : forall st uri d st', closed S none st -> all_of ld (inside S st) -> get_schema ld uri st = (Ok d, st') -> inside S st d.
Proof.
  induction ld as [|own up IH]; intros st uri d st' C A E; cbn [get_schema] in E; [discriminate|]. destruct (mget uri own) as [c|] eqn:G.
  - injection E as <- <-. eapply A; [left; reflexivity|exact G].
  - destruct (base_and_fragment uri) as [b fr]. destruct (mget b own) as [c|] eqn:G2.
    + eapply fragment_inside; [exact C| |exact E]. eapply A; [left; reflexivity|exact G2].
    + destruct up as [|o up]; [discriminate|]. eapply IH; [exact C| |exact E]. intros o' k c I. apply A. right. exact I.
Qed.

(** The schema {"$ref": x}. *)
Lemma local_ref st x : with_local CNull (fun l => set_key l k_ref x;; load l) st =
  (Ok (CMap (hlen st)), HState (h_vars st) (h_heap st ++ [StMap [(k_ref, x)]])).
Proof.
  unfold with_local, set_key, map_set_key, map_insert, get_map, get_storage, put_storage, alloc, assign, load, store, peek, with_heap, bind, ret, fail. cbn [h_vars h_heap].
  repeat (rewrite ?nth_last, ?lput_last; cbn [h_vars h_heap mget mset]; rewrite ?beqb_refl). rewrite firstn_last. cbn [mset]. rewrite bcmp_refl. reflexivity.
Qed.

(** ** The whole call *)
(** The two sides have at most strings and blobs in common. *)
Definition texts_shared (st : hstate) (S1 S2 : nat -> Prop) : Prop :=
  forall s x, S1 s -> S2 s -> nth_error (h_heap st) s = Some x -> ~ container x.
Definition flat (c : cell) : Prop := match c with CList _ | CMap _ => False | _ => True end.
Definition holds_in (c : cell) (s : nat) : Prop :=
  match c with CStr z | CBlob (Some z) => s = z | _ => False end.

Lemma nth_grow (l : list storage) x s : (s < List.length l)%nat -> nth_error (l ++ [x]) s = nth_error l s.
Proof. intros H. apply nth_error_app1, H. Qed.
Lemma inside_lt S st c s : closed S none st -> inside S st c -> match c with CStr z | CList z | CMap z | CBlob (Some z) => s = z | _ => False end -> (s < hlen st)%nat.
Proof. intros C I H. destruct c as [| | | | |z|z|z|[z|]]; try tauto; subst; apply (cl_bound _ _ _ C), I. Qed.

(** Adding a map with one entry, which is not a container. *)
Lemma ref_side S1 S2 st x : closed S1 none st -> closed S2 none st -> texts_shared st S1 S2 -> inside S2 st x -> flat x ->
  let st1 := HState (h_vars st) (h_heap st ++ [StMap [(k_ref, x)]]) in
  exists S1', closed S1' none st1 /\ inside S1' st1 (CMap (hlen st)) /\ closed S2 none st1 /\ texts_shared st1 S1' S2.
Proof.
  intros C1 C2 D I2 Fx st1. assert (HH : h_heap st1 = h_heap st ++ [StMap [(k_ref, x)]]) by reflexivity. assert (KK : forall t k, kind_at st t k -> kind_at st1 t k).
  { intros t k (z & Ez & Kz). exists z. split; auto. cbn. rewrite nth_grow; auto. apply nth_error_Some. congruence. }
  set (S1' := fun s => S1 s \/ s = hlen st \/ holds_in x s). exists S1'.
  assert (Bx : forall s, holds_in x s -> (s < hlen st)%nat /\ exists y, nth_error (h_heap st) s = Some y /\ ~ container y).
  { intros s H. split; [eapply inside_lt; [exact C2|exact I2|]; destruct x as [| | | | |z|z|z|[z|]]; cbn in H; tauto|].
    destruct x as [| | | | |z|z|z|[z|]]; cbn in H; try tauto; subst; cbn in I2; destruct I2 as (_ & y & Ey & Ky); exists y; (split; [exact Ey|]); destruct y; try discriminate; cbn; auto. }
  assert (Ix : inside S1' st1 x).
  { destruct x as [| | | | |z|z|z|[z|]]; cbn in *; auto; try tauto; (split; [right; right; reflexivity|apply KK, I2]). }
  assert (II : forall c, inside S1 st c -> inside S1' st1 c).
  { intros c. apply inside_mono; auto. intros s Hs. left. exact Hs. }
  split; [split|split; [|split; [split|]]].
  - intros y c [].
  - intros s y c Hs Ey Ic. rewrite HH in Ey. destruct (Nat.lt_ge_cases s (hlen st)) as [L|L].
    + rewrite nth_grow in Ey by exact L. destruct Hs as [Hs|[->|Hs]]; [|lia|].
      * apply II. apply (cl_heap _ _ _ C1 _ _ _ Hs Ey Ic).
      * destruct (Bx s Hs) as (_ & y' & Ey' & Ny). rewrite Ey in Ey'. injection Ey' as <-. destruct y; cbn in Ny, Ic; tauto.
    + assert (s = hlen st) as ->. { assert (s < List.length (h_heap st ++ [StMap [(k_ref, x)]]))%nat by (apply nth_error_Some; congruence). rewrite app_length in H. cbn in H. unfold hlen in *. lia. }
      unfold hlen in Ey. rewrite nth_last in Ey. injection Ey as <-. cbn in Ic. destruct Ic as [<-|[]]. exact Ix.
  - intros s y Hs Ey. rewrite HH in Ey. destruct (Nat.lt_ge_cases s (hlen st)) as [L|L].
    + rewrite nth_grow in Ey by exact L. destruct Hs as [Hs|[->|Hs]]; [|lia|].
      * apply (cl_sort _ _ _ C1 _ _ Hs Ey).
      * destruct (Bx s Hs) as (_ & y' & Ey' & Ny). rewrite Ey in Ey'. injection Ey' as <-. destruct y; cbn in *; tauto.
    + assert (s = hlen st) as ->. { assert (s < List.length (h_heap st ++ [StMap [(k_ref, x)]]))%nat by (apply nth_error_Some; congruence). rewrite app_length in H. cbn in H. unfold hlen in *. lia. }
      unfold hlen in Ey. rewrite nth_last in Ey. injection Ey as <-. cbn. split; [intros k' []|exact Logic.I].
  - intros s Hs. cbn. rewrite app_length. cbn. destruct Hs as [Hs|[->|Hs]]; [assert (H := cl_bound _ _ _ C1 _ Hs)|unfold hlen|destruct (Bx s Hs) as [H _]; unfold hlen in H]; lia.
  - cbn. split; [right; left; reflexivity|]. exists (StMap [(k_ref, x)]). split; [apply nth_last|reflexivity].
  - intros y c [].
  - intros s y c Hs Ey Ic. assert (L := cl_bound _ _ _ C2 _ Hs). rewrite HH in Ey. rewrite nth_grow in Ey by exact L. eapply inside_mono; [| |apply (cl_heap _ _ _ C2 _ _ _ Hs Ey Ic)]; auto.
  - intros s y Hs Ey. assert (L := cl_bound _ _ _ C2 _ Hs). rewrite HH in Ey. rewrite nth_grow in Ey by exact L. apply (cl_sort _ _ _ C2 _ _ Hs Ey).
  - intros s Hs. cbn. rewrite app_length. assert (L := cl_bound _ _ _ C2 _ Hs). lia.
  - intros s y H1 H2 Ey. assert (L := cl_bound _ _ _ C2 _ H2). rewrite HH in Ey. rewrite nth_grow in Ey by exact L.
    destruct H1 as [H1|[->|H1]]; [eapply D; eauto|unfold hlen in L; lia|]. destruct (Bx s H1) as (_ & y' & Ey' & Ny). rewrite Ey in Ey'. injection Ey' as <-. exact Ny.
Qed.

(** The "$schema" of the data, when the schema is null, is not a list or a map. *)
Definition schema_flat (st : hstate) (cs cd : cell) : Prop :=
  cs = CNull -> forall x, child st cd (PKey k_schema) = Some x -> flat x.

Lemma choose_side S1 S2 st meta up cs cd r st1 : closed S1 none st -> closed S2 none st -> texts_shared st S1 S2 ->
  inside S1 st cs -> inside S2 st cd -> all_of (new_loader meta up) (inside S1 st) -> schema_flat st cs cd ->
  choose_schema (new_loader meta up) cs cd st = (r, st1) ->
  exists S1', closed S1' none st1 /\ closed S2 none st1 /\ texts_shared st1 S1' S2 /\ h_vars st1 = h_vars st /\
    (forall s, S2 s -> nth_error (h_heap st1) s = nth_error (h_heap st) s) /\ forall c, r = Ok c -> inside S1' st1 c.
Proof.
  intros C1 C2 D I1 I2 A Fl E.
  assert (K : (forall c, inside S1 st c -> match c with CStr z => let* u := get_str z in get_schema (new_loader meta up) u | _ => ret c end st = (r, st1) ->
    st1 = st /\ forall d, r = Ok d -> inside S1 st d)).
  { intros c Ic H. destruct c; try (injection H as <- <-; split; [reflexivity|intros d [= <-]; exact Ic]).
    unfold bind in H. assert (P := pure_get_str s st). destruct (get_str s st) as [r0 st0]. cbn in P. subst st0.
    destruct r0 as [u| | | |]; try (injection H as <- <-; split; [reflexivity|discriminate]).
    assert (P := pure_get_schema (new_loader meta up) u st). rewrite H in P. cbn in P. split; [exact P|]. intros d ->. eapply get_schema_inside; eauto. }
  assert (Keep : forall c, inside S1 st c -> match c with CStr z => let* u := get_str z in get_schema (new_loader meta up) u | _ => ret c end st = (r, st1) ->
    exists S1', closed S1' none st1 /\ closed S2 none st1 /\ texts_shared st1 S1' S2 /\ h_vars st1 = h_vars st /\
    (forall s, S2 s -> nth_error (h_heap st1) s = nth_error (h_heap st) s) /\ forall c, r = Ok c -> inside S1' st1 c).
  { intros c Ic H. destruct (K c Ic H) as [-> Q]. exists S1. split; [exact C1|]. split; [exact C2|]. split; [exact D|]. split; [reflexivity|]. split; [intros; reflexivity|exact Q]. }
  unfold choose_schema in E. destruct cs; try (apply (Keep _ I1); exact E). destruct cd; try (apply (Keep CNull I1); exact E).
  cbn in I2. destruct I2 as [Hd (y & Ey & Ky)]. destruct y as [| |m|]; try discriminate.
  unfold bind at 1 in E. unfold bind at 1 in E. unfold get_map at 1 in E. unfold bind at 1 in E. unfold get_storage at 1 in E. rewrite Ey in E. cbn [ret] in E.
  destruct (mget k_schema m) as [x|] eqn:Gx.
  - rewrite local_ref in E. cbn [ret] in E. injection E as <- <-.
    assert (Ix : inside S2 st x). { apply (cl_heap _ _ _ C2 _ _ _ Hd Ey). cbn. apply mget_In in Gx. apply (in_map snd) in Gx. exact Gx. }
    assert (Fx : flat x). { apply (Fl eq_refl). cbn. rewrite Ey. exact Gx. }
    destruct (ref_side S1 S2 st x C1 C2 D Ix Fx) as (S1' & C1' & I1' & C2' & D'). exists S1'.
    split; [exact C1'|]. split; [exact C2'|]. split; [exact D'|]. split; [reflexivity|]. split; [|intros c [= <-]; exact I1'].
    intros t Ht. cbn. apply nth_grow. apply (cl_bound _ _ _ C2 _ Ht).
  - apply (Keep CNull I1). exact E.
Qed.

(** Normalising stays out of the other side. *)
Lemma norm_side S1 S2 st c fuel uri r st1 : closed S1 none st -> closed S2 none st -> texts_shared st S1 S2 -> inside S1 st c ->
  with_local c (fun l => norm_schema fuel l uri) st = (r, st1) ->
  h_vars st1 = h_vars st /\ forall s, S2 s -> nth_error (h_heap st1) s = nth_error (h_heap st) s.
Proof.
  intros C1 C2 D I E. destruct (local_norm S1 st c fuel uri r st1 C1 I E) as (S' & Ev & V & K). split; [exact V|]. intros s Hs.
  assert (L := cl_bound _ _ _ C2 _ Hs). destruct (nth_error (h_heap st) s) as [x|] eqn:Ex; [|apply nth_error_None in Ex; lia].
  assert (DC : container x \/ ~ container x) by (destruct x; cbn; tauto). destruct DC as [Cx|Nx]; [|apply K; auto].
  rewrite <- Ex. apply (ev_heap _ _ _ _ _ Ev); [exact L|]. intros H. exact (D s x H Hs Ex Cx).
Qed.

Lemma prepare_side S1 S2 st meta up cs cd n r st1 : closed S1 none st -> closed S2 none st -> texts_shared st S1 S2 ->
  inside S1 st cs -> inside S2 st cd -> all_of (new_loader meta up) (inside S1 st) -> schema_flat st cs cd ->
  prepare n meta up cs cd st = (r, st1) ->
  h_vars st1 = h_vars st /\ forall s, S2 s -> nth_error (h_heap st1) s = nth_error (h_heap st) s.
Proof.
  intros C1 C2 D I1 I2 A Fl E. unfold prepare in E. unfold bind at 1 in E.
  destruct (choose_schema (new_loader meta up) cs cd st) as [r0 st0] eqn:E0.
  destruct (choose_side S1 S2 st meta up cs cd r0 st0 C1 C2 D I1 I2 A Fl E0) as (S1' & C1' & C2' & D' & V & H & Q).
  destruct r0 as [c| | | |]; try (injection E as <- <-; split; auto). specialize (Q _ eq_refl).
  unfold add_schema in E. unfold bind at 1 in E. unfold bind at 1 in E. destruct (with_local c _ st0) as [r2 st2] eqn:E2.
  destruct (norm_side S1' S2 st0 c _ _ r2 st2 C1' C2' D' Q E2) as [V2 H2].
  assert (G : h_vars st2 = h_vars st /\ forall s, S2 s -> nth_error (h_heap st2) s = nth_error (h_heap st) s).
  { split; [congruence|]. intros s Hs. rewrite H2, H; auto. }
  destruct r2; try (injection E as <- <-; exact G). unfold bind at 1 in E.
  assert (P := pure_search n [(resolve_uri [] [], c)] c (resolve_uri [] []) st2). destruct (search_trusted _ _ _ _ st2) as [r3 st3]. cbn in P. subst st3.
  destruct r3; injection E as <- <-; exact G.
Qed.

Lemma validate_side rx fuel S1 S2 st meta up cs cd n r st1 : closed S1 none st -> closed S2 none st -> texts_shared st S1 S2 ->
  inside S1 st cs -> inside S2 st cd -> all_of (new_loader meta up) (inside S1 st) -> schema_flat st cs cd ->
  validate_top rx fuel n meta up cs cd st = (r, st1) ->
  h_vars st1 = h_vars st /\ (forall s, S2 s -> nth_error (h_heap st1) s = nth_error (h_heap st) s) /\ forall p, shows st1 cd p = shows st cd p.
Proof.
  intros C1 C2 D I1 I2 A Fl E. assert (G : h_vars st1 = h_vars st /\ forall s, S2 s -> nth_error (h_heap st1) s = nth_error (h_heap st) s).
  { unfold validate_top in E. unfold bind at 1 in E. destruct (prepare n meta up cs cd st) as [r0 st0] eqn:E0.
    assert (H := prepare_side S1 S2 st meta up cs cd n r0 st0 C1 C2 D I1 I2 A Fl E0).
    destruct r0 as [cl| | | |]; try (injection E as <- <-; exact H). unfold bind at 1 in E.
    assert (P := pure_read_out n (fst cl) st0). destruct (read_out n (fst cl) st0) as [r2 st2]. cbn in P. subst st2.
    destruct r2; try (injection E as <- <-; exact H). unfold bind at 1 in E.
    assert (P := pure_read_out n cd st0). destruct (read_out n cd st0) as [r2 st2]. cbn in P. subst st2.
    destruct r2; injection E as <- <-; exact H. }
  destruct G as [V H]. split; [exact V|]. split; [exact H|]. intros p. unfold shows.
  rewrite (cell_at_agree S2 none st st1 C2 H) by auto. destruct (cell_at st cd p) as [d|] eqn:Dd; auto.
  rewrite (shape_agree S2 st st1 H); auto. eapply cell_at_inside; eauto.
Qed.
