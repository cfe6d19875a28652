(** What FlattenPath and ExpandPath do to documents that are trees. *)
From Verif Require Import Base CNum Float Value Blob Path Numeric Convert Emit Uri P_Uri Heap HeapProofs HeapSpec SharingProofs ValueOps HeapTree
  HeapErase HeapTreeFacts Pointer PointerWalk PointerOps PointerCmp PointerSem PatchSem PointerText DiffSem Ext ExtSem.
Open Scope N_scope.

(** ** Flattening a value *)
Definition vsimple (l : list value) : bool := forallb (fun x => match x with VList _ | VMap _ => false | _ => true end) l.
(** What is written as it is. *)
Definition vleaf (prm : ext_params) (x : value) : bool :=
  match x with VMap _ => false | VList l => negb (ep_nosimple prm) && vsimple l | _ => true end.
Definition velems (x : value) : list pelem :=
  match x with
  | VList l => List.map (fun i => PIdx (N.of_nat i)) (seq 0 (List.length l))
  | VMap m => List.map PKey (mkeys m)
  | _ => []
  end.
Fixpoint vflat (n : nat) (prm : ext_params) (v x : value) (prefix : bytes) : value :=
  match n with
  | O => v
  | S n' =>
      if vleaf prm x then match prefix with [] => x | _ => vput_key v prefix x end
      else fold_left (fun v e => vflat n' prm v (or_else (vchild x e) VNull) (elem_prefix prm prefix e)) (velems x) v
  end.
Lemma mapping_flat n prm : forall v x prefix, mapping v -> prefix <> [] -> mapping (vflat n prm v x prefix).
Proof.
  assert (Pn : forall prefix e, prefix <> [] -> elem_prefix prm prefix e <> []).
  { intros [|a p] [k|i] N; try congruence; discriminate. }
  induction n as [|n IH]; intros v x prefix M N; [exact M|]. cbn [vflat]. destruct (vleaf prm x).
  - destruct prefix; [congruence|]. apply mapping_put, M.
  - generalize (velems x). intros es. revert v M. induction es as [|e es IHe]; intros v M; [exact M|]. cbn [fold_left]. apply IHe, IH; auto.
Qed.
Lemma simple_owns h vs cs Fs : owns_list h vs cs Fs -> simple_list cs = vsimple vs.
Proof.
  revert cs Fs; induction vs as [|v vs IH]; intros [|c cs] [|f Fs]; cbn [owns_list]; try tauto. intros [O R]. cbn [simple_list vsimple forallb].
  f_equal; [|eapply IH; eauto]. destruct v, c; cbn [owns] in O; try (exfalso; exact O); reflexivity.
Qed.
Lemma leaf_depth prm x : vleaf prm x = true -> (vdepth x <= 2)%nat.
Proof.
  destruct x; cbn [vleaf]; try discriminate; intros H; try (cbn; lia). apply andb_prop in H. destruct H as [_ H]. unfold vsimple in H. rewrite forallb_forall in H.
  cbn [vdepth]. induction l as [|a l IH]; [cbn; lia|]. cbn [fold_right] in *. assert (A : (vdepth a <= 1)%nat).
  { assert (Z := H a (or_introl eq_refl)). destruct a; try discriminate; cbn; lia. }
  assert (B := IH (fun y J => H y (or_intror J))). lia.
Qed.
Lemma leaf_sem st l v c F lr y cr H prm prefix : tree st l v c F -> view st l F lr y cr H -> noblob y -> vleaf prm y = true -> prefix = [] \/ mapping v ->
  exists st', flatten_leaf (RRef l) cr prefix st = (Ok tt, st') /\ becomes st l F [] st' (match prefix with [] => y | _ => vput_key v prefix y end).
Proof.
  intros T V Nb L M. destruct (copy_tree y cr H 2 st (proj1 (proj2 V)) Nb (leaf_depth _ _ L)) as (cx & st1 & G & E1 & X & O & ND & Fr).
  unfold flatten_leaf. rewrite (bind_ok _ _ _ _ _ E1). destruct prefix as [|a p]; [eapply set_fresh; eauto|]. destruct M as [|M]; [discriminate|]. eapply put_fresh; eauto.
Qed.
Lemma velems_child x e : vsorted x -> In e (velems x) -> exists w, vchild x e = Some w.
Proof.
  destruct x; cbn [velems]; try (intros _ []); intros S J; apply in_map_iff in J; destruct J as (i & <- & J); cbn [vchild].
  - apply in_seq in J. rewrite Nat2N.id. destruct (nth_error l i) eqn:E; eauto. apply nth_error_None in E. lia.
  - apply mget_mkeys, J.
Qed.
Lemma each_map {A B} (f : B -> M unit) (g : A -> B) l st : each f (List.map g l) st = each (fun a => f (g a)) l st.
Proof. revert st; induction l as [|a l IH]; intros st; [reflexivity|]. cbn [List.map each]. unfold bind. destruct (f (g a) st) as [[] ?]; auto. Qed.
Lemma each_ext {A} (f g : A -> M unit) l st : (forall a st, In a l -> f a st = g a st) -> each f l st = each g l st.
Proof.
  revert st; induction l as [|a l IH]; intros st E; [reflexivity|]. cbn [each]. unfold bind. rewrite E by (left; reflexivity).
  destruct (g a st) as [[] ?]; auto. apply IH. intros b st' J. apply E. right. exact J.
Qed.
(** The children of a container, whichever it is. *)
Lemma container_sem n prm st l F lr y cr H prefix : view st l F lr y cr H -> vleaf prm y = false -> lists_fit y ->
  exists s, (forall e, In e (velems y) -> base cr e = Some s) /\
  flatten_to (S n) prm (RRef l) lr prefix st = each (fun e => flatten_to n prm (RRef l) (slot s e) (elem_prefix prm prefix e)) (velems y) st.
Proof.
  intros V L Fit. cbn [flatten_to]. rewrite (bind_load _ _ _ _ (proj1 V)). assert (O := proj1 (proj2 V)).
  destruct y, cr; cbn [owns] in O; try (exfalso; exact O); try discriminate; exists s.
  - apply (owns_VList (h_heap st)) in O. destruct O as (cs & Fs & E & _ & O). rewrite (bind_get_list _ _ _ _ E).
    cbn [vleaf] in L. rewrite (simple_owns _ _ _ _ O), L. split; [intros e J; apply in_map_iff in J; destruct J as (i & <- & _); reflexivity|].
    assert (Sz := owns_list_length _ _ _ _ O). cbn [velems]. rewrite each_map.
    replace (N.to_nat (wrap32 (lsize cs))) with (List.length l0).
    + rewrite each_map. apply each_ext. reflexivity.
    + unfold lsize. rewrite Sz. assert (Z := Fit [] l0 eq_refl). rewrite small32 by lia. rewrite Nat2N.id. reflexivity.
  - destruct (view_map _ _ _ _ _ _ _ V) as (s' & cm & Ec & E & K & _). injection Ec as <-. rewrite (bind_get_map _ _ _ _ E). cbn [velems]. rewrite each_map.
    split; [intros e J; apply in_map_iff in J; destruct J as (k & <- & _); reflexivity|]. unfold mkeys. rewrite K. reflexivity.
Qed.
Lemma flatten_sem n prm : forall st l v c F lr y cr H prefix, tree st l v c F -> view st l F lr y cr H -> mapping v -> prefix <> [] -> noblob y -> lists_fit y ->
  (vdepth y <= n)%nat -> exists st', flatten_to n prm (RRef l) lr prefix st = (Ok tt, st') /\ becomes st l F [] st' (vflat n prm v y prefix).
Proof.
  induction n as [|n IH]; intros st l v c F lr y cr H prefix T V M N Nb Fit D; [assert (Z := vdepth_pos y); lia|].
  destruct (vleaf prm y) eqn:L.
  - cbn [flatten_to vflat]. rewrite L, (bind_load _ _ _ _ (proj1 V)). assert (Lf := leaf_sem st l v c F lr y cr H prm prefix T V Nb L (or_intror M)). assert (O := proj1 (proj2 V)).
    destruct y, cr; cbn [owns] in O; try (exfalso; exact O); try discriminate; try exact Lf.
    apply (owns_VList (h_heap st)) in O. destruct O as (cs & Fs & E & _ & O). rewrite (bind_get_list _ _ _ _ E). cbn [vleaf] in L. rewrite (simple_owns _ _ _ _ O), L. exact Lf.
  - destruct (container_sem n prm st l F lr y cr H prefix V L Fit) as (s & Bs & ->). cbn [vflat]. rewrite L.
    assert (Sy := owns_sorted _ _ _ _ (proj1 (proj2 V))).
    apply (each_loop l _ _ mapping (fun st F => view st l F lr y cr H)) with (c := c); auto.
    + intros st0 v0 c0 F0 st1 v1 c1 F1 T0 V0 U. eapply view_turns; eauto.
    + intros e v0 J M0. apply mapping_flat; auto. destruct prefix; [congruence|]. destruct e; discriminate.
    + intros e v0 st0 c0 F0 J M0 T0 V0. destruct (velems_child _ _ Sy J) as [w W].
      destruct (view_child st0 l F0 lr y cr H e w V0 W) as (s2 & x2 & cw & Hw & B2 & X2 & G2 & Vw). rewrite (Bs e J) in B2. injection B2 as <-. rewrite W. cbn [or_else].
      eapply IH; eauto.
      * destruct prefix; [congruence|]. destruct e; discriminate.
      * apply (noblob_child y e); auto.
      * exact (lists_fit_child y e w Fit W).
      * assert (Z := vdepth_child y e w W). lia.
Qed.
(** The whole document: no prefix yet. *)
Lemma flatten_root n prm st l c F lr y cr H : tree st l VNull c F -> view st l F lr y cr H -> noblob y -> lists_fit y -> (vdepth y <= n)%nat ->
  (forall e, In e (velems y) -> elem_prefix prm [] e <> []) ->
  exists st', flatten_to n prm (RRef l) lr [] st = (Ok tt, st') /\ becomes st l F [] st' (vflat n prm VNull y []).
Proof.
  intros T V Nb Fit D Ne. destruct n as [|n]; [assert (Z := vdepth_pos y); lia|]. destruct (vleaf prm y) eqn:L.
  - cbn [flatten_to vflat]. rewrite L, (bind_load _ _ _ _ (proj1 V)). assert (Lf := leaf_sem st l VNull c F lr y cr H prm [] T V Nb L (or_introl eq_refl)). assert (O := proj1 (proj2 V)).
    destruct y, cr; cbn [owns] in O; try (exfalso; exact O); try discriminate; try exact Lf.
    apply (owns_VList (h_heap st)) in O. destruct O as (cs & Fs & E & _ & O). rewrite (bind_get_list _ _ _ _ E). cbn [vleaf] in L. rewrite (simple_owns _ _ _ _ O), L. exact Lf.
  - destruct (container_sem n prm st l F lr y cr H [] V L Fit) as (s & Bs & ->). cbn [vflat]. rewrite L.
    assert (Sy := owns_sorted _ _ _ _ (proj1 (proj2 V))).
    apply (each_loop l _ _ mapping (fun st F => view st l F lr y cr H)) with (c := c); auto.
    + intros st0 v0 c0 F0 st1 v1 c1 F1 T0 V0 U. eapply view_turns; eauto.
    + intros e v0 J M0. apply mapping_flat; auto.
    + intros e v0 st0 c0 F0 J M0 T0 V0. destruct (velems_child _ _ Sy J) as [w W].
      destruct (view_child st0 l F0 lr y cr H e w V0 W) as (s2 & x2 & cw & Hw & B2 & X2 & G2 & Vw). rewrite (Bs e J) in B2. injection B2 as <-. rewrite W. cbn [or_else].
      eapply flatten_sem; eauto.
      * apply (noblob_child y e); auto.
      * exact (lists_fit_child y e w Fit W).
      * assert (Z := vdepth_child y e w W). lia.
    + left. reflexivity.
Qed.

(** ** Expanding a value *)
Fixpoint vexpand (d : ascii) (v : value) (fm : list (bytes * value)) : option value :=
  match fm with
  | [] => Some v
  | (k, w) :: t =>
      match parse_path (to_slash d k) with
      | Ok p => match vset v p w with Some v' => vexpand d v' t | None => None end
      | _ => None
      end
  end.
Definition paths_small (d : ascii) (fm : list (bytes * value)) : Prop := forall k p, In k (mkeys fm) -> parse_path (to_slash d k) = Ok p -> path_small p.
Lemma becomes_heap st l v c F G st' v' s x : tree st l v c F -> becomes st l F G st' v' -> nth_error (h_heap st) s = Some x -> ~ In s F -> outside l [s] -> nth_error (h_heap st') s = Some x.
Proof.
  intros T (c' & F' & _ & _ & _ & N & _) E Ns O. rewrite N by (auto; unfold hlen; apply nth_error_Some; congruence). rewrite E.
  destruct l as [y|t i|t k]; cbn [patch outside] in *; destruct x; auto; destruct (Nat.eqb_spec s t); auto; subst; exfalso; apply O; left; reflexivity.
Qed.
Lemma expand_loop l s cm d : forall fm cs Fs st v c F v', tree st l v c F -> nth_error (h_heap st) s = Some (StMap cm) -> ~ In s F -> outside l [s] ->
  owns_list (h_heap st) (List.map snd fm) cs Fs -> NoDup (List.concat Fs) -> apart F (List.concat Fs) -> outside l (List.concat Fs) -> ~ In s (List.concat Fs) ->
  (forall k cx, In (k, cx) (combine (mkeys fm) cs) -> mget k cm = Some cx) -> paths_small d fm -> vexpand d v fm = Some v' ->
  exists st', each (fun k => let* p := fail (parse_path (to_slash d k)) in let* x := load (LKey s k) in let* l0 := resolve_create (RRef l) in set_path p l0 x) (mkeys fm) st = (Ok tt, st') /\
    exists c' F', tree st' l v' c' F'.
Proof.
  induction fm as [|[k w] fm IH]; intros cs Fs st v c F v' T Es Ns Os O ND A Ol Nf Hc Ps E; cbn [vexpand] in E.
  - injection E as <-. exists st. split; [reflexivity|eauto].
  - destruct cs as [|cx cs], Fs as [|G Fs]; cbn [List.map owns_list] in O; try (exfalso; exact O). destruct O as [Ow O].
    cbn [List.concat] in ND, A, Ol, Nf. apply nodup_app in ND. destruct ND as (NG & NF & Sep). rewrite in_app_iff in Nf.
    destruct (parse_path (to_slash d k)) as [p| | | |] eqn:P; try discriminate. destruct (vset v p w) as [v1|] eqn:Sv; [|discriminate].
    assert (Gk : mget k cm = Some cx) by (apply Hc; left; reflexivity).
    assert (Pk : peek st (LKey s k) = Some cx) by (cbn [peek]; rewrite Es; exact Gk).
    assert (S := set_path_tree p st l v c F w cx G T). rewrite Sv in S. destruct S as (st1 & E1 & c1 & F1 & U1); auto.
    { apply (Ps k); [left; reflexivity|exact P]. } { intros t J J'. apply (A t J). apply in_or_app. auto. } { eapply outside_incl; [exact Ol|]. intros t J. apply in_or_app. auto. }
    assert (B1 := turns_becomes _ _ _ _ _ _ _ _ U1).
    assert (F1s : forall t, In t F1 -> In t F \/ In t G \/ (hlen st <= t)%nat) by apply U1.
    assert (Lts : (s < hlen st)%nat) by (unfold hlen; apply nth_error_Some; congruence).
    assert (LtF : forall t, In t (List.concat Fs) -> (t < hlen st)%nat).
    { intros t J. destruct (owns_list_In _ _ _ _ _ O J) as (a & b & f & _ & Oa & Ja). unfold hlen. eapply owns_lt; eauto. }
    destruct (IH cs Fs st1 v1 c1 F1 v') as (st2 & E2 & R); auto.
    + apply U1.
    + eapply becomes_heap; eauto.
    + intros J. apply F1s in J. destruct J as [J|[J|J]]; [auto|auto|lia].
    + clear - O T B1 A Ol. assert (Aa : forall t, In t (List.concat Fs) -> ~ In t F) by (intros t J J'; apply (A t J'); apply in_or_app; auto).
      assert (Oo : outside l (List.concat Fs)) by (eapply outside_incl; [exact Ol|]; intros t J; apply in_or_app; auto). clear A Ol. revert O Aa Oo. generalize (List.map snd fm). clear fm.
      revert Fs. induction cs as [|c0 cs IHc]; intros [|f Fs] [|v0 vs]; cbn [owns_list List.concat]; try tauto. intros [O1 O2] Aa Oo. split.
      * eapply becomes_keep; eauto. { intros t J. apply Aa. apply in_or_app. auto. } eapply outside_incl; [exact Oo|]. intros t J. apply in_or_app. auto.
      * apply IHc; auto. { intros t J. apply Aa. apply in_or_app. auto. } eapply outside_incl; [exact Oo|]. intros t J. apply in_or_app. auto.
    + intros t J J'. apply F1s in J. destruct J as [J|[J|J]]; [apply (A t J); apply in_or_app; auto|exact (Sep t J J')|apply LtF in J'; lia].
    + eapply outside_incl; [exact Ol|]. intros t J. apply in_or_app. auto.
    + intros k' cx' J. apply Hc. right. exact J.
    + intros k' p' J. apply Ps. right. exact J.
    + exists st2. split; [|exact R]. cbn [mkeys List.map fst each]. unfold mkeys in E2. rewrite (bind_ok _ _ _ tt st1); [exact E2|]. rewrite P, (bind_ok (fail (Ok p)) _ st p st eq_refl).
      rewrite (bind_load _ _ _ _ Pk). cbn [resolve_create]. rewrite (bind_ok (ret l) _ st l st eq_refl). exact E1.
Qed.
Lemma in_combine_map {A} (cm : list (bytes * A)) k x : In (k, x) (combine (List.map fst cm) (List.map snd cm)) -> In (k, x) cm.
Proof. induction cm as [|[k' y] cm IH]; cbn; auto. intros [E|J]; [left; congruence|right; auto]. Qed.
Lemma expand_sem st l c F lr fm cr H prm d v' : tree st l VNull c F -> view st l F lr (VMap fm) cr H -> ep_delim prm = [d] -> paths_small d fm ->
  vexpand d VNull fm = Some v' -> exists st' c' F', expand_to prm (RRef l) lr st = (Ok tt, st') /\ tree st' l v' c' F'.
Proof.
  intros T V Dl Ps E. assert (V' := V). destruct V' as (P & O & ND & A & Ol & Or & Ne). unfold expand_to. rewrite (bind_load _ _ _ _ P), Dl.
  destruct cr; cbn [owns] in O; try (exfalso; exact O). apply (owns_VMap (h_heap st)) in O. destruct O as (cm & Fs & Es & -> & Sm & K & O).
  rewrite (bind_get_map _ _ _ _ Es). destruct (proj1 (NoDup_cons_iff _ _) ND) as [N1 N2].
  destruct (expand_loop l s cm d fm (List.map snd cm) Fs st VNull c F v') as (st' & E' & c' & F' & T'); auto.
  - intros J. apply (A s J). left. reflexivity.
  - eapply outside_incl; [exact Ol|]. intros t [<-|[]]. left. reflexivity.
  - intros t J J'. apply (A t J). right. exact J'.
  - eapply outside_incl; [exact Ol|]. intros t J. right. exact J.
  - intros k cx J. unfold mkeys in J. rewrite K in J. apply in_combine_map in J. apply In_mget; [eapply msorted_keys; eauto|exact J].
  - exists st', c', F'. split; [|exact T']. unfold mkeys in *. rewrite <- K. exact E'.
Qed.
(** A value that is not a map is kept. *)
Lemma expand_other st l c F lr y cr H prm : tree st l VNull c F -> view st l F lr y cr H -> ~ is_map y -> exists st' c' F', expand_to prm (RRef l) lr st = (Ok tt, st') /\ tree st' l y c' F'.
Proof.
  intros T V Nm. assert (V' := V). destruct V' as (P & O & ND & A & Ol & Or & Ne). unfold expand_to. rewrite (bind_load _ _ _ _ P).
  destruct (set_path_tree [] st l VNull c F y cr H T ltac:(constructor) O ND A Ol) as (st' & E & c' & F' & U).
  exists st', c', F'. split; [|apply U]. destruct cr; try exact E. exfalso. apply Nm. destruct y; cbn [owns] in O; try (exfalso; exact O). eexists. reflexivity.
Qed.
