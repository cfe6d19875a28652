(** The schema loader on trees. *)
From Verif Require Import Base Float Value Blob Path Numeric Heap HeapProofs HeapSpec SharingProofs ValueOps HeapTree HeapErase HeapTreeFacts
  ExtValue Uri Pointer Schema SchemaLoad SchemaLoadFrame SchemaNorm.
Open Scope N_scope.

Lemma alloc_turns st l v c F x : tree st l v c F -> ~ container x ->
  exists st0, alloc x st = (Ok (hlen st), st0) /\ turns st l F [] st0 v c F /\ nth_error (h_heap st0) (hlen st) = Some x.
Proof.
  intros T Nx. unfold alloc. eexists. split; [reflexivity|]. cbn. split; [|apply nth_last].
  assert (HL : forall s, (s < hlen st)%nat -> nth_error (h_heap st ++ [x]) s = nth_error (h_heap st) s) by (intros; apply nth_error_app1; auto).
  destruct T as [P O ND OL LS]. split; [split|]; auto.
  - destruct l as [y|s i|s k]; cbn [peek h_heap with_heap h_vars] in *; auto.
    + rewrite HL; auto. unfold hlen. apply nth_error_Some. intros E. rewrite E in P. discriminate.
    + rewrite HL; auto. unfold hlen. apply nth_error_Some. intros E. rewrite E in P. discriminate.
  - apply owns_frame with (h := h_heap st); auto.
    + intros s y E _. rewrite HL; auto. unfold hlen. apply nth_error_Some. congruence.
    + intros s I. apply HL. eapply owns_lt; eauto.
  - destruct l as [y|s i|s k]; cbn [lsorted h_heap with_heap] in *; auto. intros m E. apply LS. rewrite <- HL; auto.
    cbn [peek] in P. unfold hlen. apply nth_error_Some. intros E2. rewrite E2 in P. discriminate.
  - repeat split; auto.
    + symmetry. apply (patchv_same st), P.
    + intros s L NF. cbn. rewrite HL by auto. symmetry. apply patch_same; auto.
    + unfold hlen. cbn. rewrite app_length. lia.
Qed.

Lemma put_text_tree st l m s F k u w : tree st l (VMap m) (CMap s) F -> mget k m = Some w ->
  exists st' F', put_text s k u st = (Ok tt, st') /\ turns st l F [] st' (VMap (mset k (VStr u) m)) (CMap s) F'.
Proof.
  intros T G. destruct (alloc_turns st l _ _ F (StStr u) T) as (st0 & E0 & T0 & N0); [cbn; tauto|].
  assert (Ow : owns (h_heap st0) (VStr u) (CStr (hlen st)) []) by (cbn; auto).
  destruct (put_elem_turns st0 l (VMap m) (CMap s) F (PKey k) s (VStr u) (CStr (hlen st)) [] (proj1 T0) eq_refl Logic.I Ow (NoDup_nil _)) as (st' & v' & F' & E & Ev & Tu & _).
  - intros t _ [].
  - destruct l; cbn; auto.
  - cbn in Ev. injection Ev as <-. exists st', F'. split; [|eapply turns_trans; eauto].
    unfold put_text. rewrite (bind_ok _ _ _ _ _ E0). rewrite <- E. cbn [put_elem]. unfold map_set_key, map_insert.
    destruct (tr_owns _ _ _ _ _ (proj1 T0)) as (cm & Fs & Es & _ & _ & K & _). unfold bind at 1. rewrite (bind_get_map _ _ _ _ Es).
    destruct (mget k cm) as [c0|] eqn:Gc; [reflexivity|].
    assert (In k (List.map fst cm)). { rewrite <- K. apply mget_In in G. apply (in_map fst) in G. exact G. }
    apply mget_None_notin in Gc. contradiction.
Qed.

Lemma owns_map_get h m s F k w : owns h (VMap m) (CMap s) F -> mget k m = Some w ->
  exists cm c f, nth_error h s = Some (StMap cm) /\ mget k cm = Some c /\ owns h w c f.
Proof.
  intros O G. apply owns_VMap in O. destruct O as (cm & Fs & E & _ & _ & K & O). exists cm.
  assert (X : forall m cm Fs, List.map fst m = List.map fst cm -> owns_list h (List.map snd m) (List.map snd cm) Fs -> mget k m = Some w ->
    exists c f, mget k cm = Some c /\ owns h w c f).
  { clear. induction m as [|[k0 x] m IH]; intros [|[k1 c] cm] [|f Fs]; cbn [List.map owns_list fst snd]; try tauto; try discriminate.
    intros K [A B] G. injection K as <- K. cbn in G |- *. destruct (beqb k k0); [injection G as <-; eauto|]. eapply IH; eauto. }
  destruct (X m cm Fs K O G) as (c & f & Gc & Ow). exists c, f. auto.
Qed.
Lemma owns_map_none h m s F k : owns h (VMap m) (CMap s) F -> mget k m = None ->
  exists cm, nth_error h s = Some (StMap cm) /\ mget k cm = None.
Proof.
  intros O G. apply owns_VMap in O. destruct O as (cm & Fs & E & _ & _ & K & O). exists cm. split; auto.
  apply mget_None_notin. apply mget_None_notin in G. unfold mkeys in *. rewrite <- K. exact G.
Qed.

Definition text_in (k : bytes) (m : list (bytes * value)) : option bytes := match mget k m with Some (VStr t) => Some t | _ => None end.
Lemma text_at_tree st l m s F k : tree st l (VMap m) (CMap s) F -> text_at s k st = (Ok (text_in k m), st).
Proof.
  intros T. unfold text_at, text_in. assert (O := tr_owns _ _ _ _ _ T). destruct (mget k m) as [w|] eqn:G.
  - destruct (owns_map_get _ _ _ _ _ _ O G) as (cm & c & f & E & Gc & Ow). rewrite (bind_get_map _ _ _ _ E), Gc.
    destruct w, c; cbn [owns] in Ow; try tauto; try reflexivity. destruct Ow as [Es _]. rewrite (bind_get_str _ _ _ _ Es). reflexivity.
  - destruct (owns_map_none _ _ _ _ _ O G) as (cm & E & Gc). rewrite (bind_get_map _ _ _ _ E), Gc. reflexivity.
Qed.

(** Normalising what is at a place that has a tree. *)
Definition norms (f : nat) : Prop := forall st l v c F uri, tree st l v c F -> (vdepth v <= f)%nat ->
  exists st' F', norm_schema f l uri st = (Ok tt, st') /\ turns st l F [] st' (vnorm uri v) c F'.

Definition hit (k : bytes) (ks : list bytes) : bool := existsb (beqb k) ks.
Lemma hit_In k ks : hit k ks = true <-> In k ks.
Proof. unfold hit. rewrite existsb_exists. split; [intros (x & I & E); apply beqb_eq in E; subst; auto|intros I; exists k; rewrite beqb_refl; auto]. Qed.

Lemma get_elem_key st l m s F k w l' : tree st l (VMap m) (CMap s) F -> mget k m = Some w ->
  (forall ch, get_elem l (PKey k) ch st = (Ok (Some l'), st)) -> l' = LKey s k.
Proof.
  intros T G H. specialize (H true). cbn [get_elem] in H. unfold get_key in H. rewrite (bind_load _ _ _ _ (tr_peek _ _ _ _ _ T)) in H.
  destruct (owns_map_get _ _ _ _ _ _ (tr_owns _ _ _ _ _ T) G) as (cm & c & f & E & Gc & _). rewrite (bind_get_map _ _ _ _ E), Gc in H.
  injection H as <-. reflexivity.
Qed.
Lemma each_keys f b s l : norms f -> forall ks st m F, tree st l (VMap m) (CMap s) F -> NoDup ks ->
  (forall k, In k ks -> exists w, mget k m = Some w /\ (vdepth w <= f)%nat) ->
  exists st' m' F', each_m (fun k => norm_schema f (LKey s k) b) ks st = (Ok tt, st') /\ turns st l F [] st' (VMap m') (CMap s) F' /\ msorted m' /\
    forall k, mget k m' = if hit k ks then match mget k m with Some w => Some (vnorm b w) | None => None end else mget k m.
Proof.
  intros IH. induction ks as [|k ks IHk]; intros st m F T ND H.
  - exists st, m, F. split; [reflexivity|]. split; [apply turns_refl, T|]. split; [|reflexivity].
    destruct (tr_owns _ _ _ _ _ T) as (cm & Fs & _ & _ & S & _). exact S.
  - destruct (H k (or_introl eq_refl)) as (w & G & D). destruct (descend_turns st l (VMap m) (CMap s) F (PKey k) w T G) as (l' & cw & Fw & Hg & Tw & Sub & Out & Back).
    assert (l' = LKey s k) as -> by (eapply get_elem_key; eauto).
    destruct (IH st (LKey s k) w cw Fw b Tw D) as (st1 & Fw' & E1 & Tu1).
    destruct (Back [] st1 (vnorm b w) cw Fw') as (v1 & F1 & Ev & Tu & _); [destruct l; cbn; auto|intros t _ []|exact Tu1|].
    cbn in Ev. injection Ev as <-. inversion ND; subst.
    assert (Sm : msorted m). { destruct (tr_owns _ _ _ _ _ T) as (cm & Fs & _ & _ & S & _). exact S. }
    destruct (IHk st1 (mset k (vnorm b w) m) F1 (proj1 Tu)) as (st2 & m2 & F2 & E2 & Tu2 & S2 & G2); auto.
    { intros k' I. destruct (H k' (or_intror I)) as (w' & G' & D'). exists w'. split; auto. rewrite mget_mset by auto.
      destruct (beqb k' k) eqn:B; auto. apply beqb_eq in B. subst. contradiction. }
    exists st2, m2, F2. split; [cbn [each_m]; rewrite (bind_ok _ _ _ _ _ E1); exact E2|]. split; [eapply turns_trans; eauto|]. split; auto.
    intros k'. rewrite G2, mget_mset by auto. unfold hit. cbn [existsb]. destruct (beqb k' k) eqn:B; cbn [orb]; auto.
    apply beqb_eq in B. subst k'. rewrite G. destruct (existsb (beqb k) ks) eqn:Ex; auto. apply hit_In in Ex. contradiction.
Qed.

Lemma get_elem_pos st l vs s F i w l' : tree st l (VList vs) (CList s) F -> nth_error vs (N.to_nat i) = Some w ->
  (forall ch, get_elem l (PIdx i) ch st = (Ok (Some l'), st)) -> l' = LIdx s i.
Proof.
  intros T G H. specialize (H true). cbn [get_elem] in H. unfold get_index in H. rewrite (bind_load _ _ _ _ (tr_peek _ _ _ _ _ T)) in H.
  destruct (proj1 (owns_VList _ _ _ _) (tr_owns _ _ _ _ _ T)) as (cs & Fs & E & _ & O). rewrite (bind_get_list _ _ _ _ E) in H.
  destruct (i <? lsize cs); [|discriminate]. injection H as <-. reflexivity.
Qed.
Definition hit_pos (i : nat) (is : list N) : bool := existsb (fun j => Nat.eqb i (N.to_nat j)) is.
Lemma each_pos f uri s l : norms f -> forall is st vs F, tree st l (VList vs) (CList s) F -> NoDup is ->
  (forall i, In i is -> exists w, nth_error vs (N.to_nat i) = Some w /\ (vdepth w <= f)%nat) ->
  exists st' vs' F', each_m (fun i => norm_schema f (LIdx s i) uri) is st = (Ok tt, st') /\ turns st l F [] st' (VList vs') (CList s) F' /\
    List.length vs' = List.length vs /\
    forall i, nth_error vs' i = if hit_pos i is then match nth_error vs i with Some w => Some (vnorm uri w) | None => None end else nth_error vs i.
Proof.
  intros IH. induction is as [|i is IHk]; intros st vs F T ND H.
  - exists st, vs, F. split; [reflexivity|]. split; [apply turns_refl, T|]. split; reflexivity.
  - destruct (H i (or_introl eq_refl)) as (w & G & D). destruct (descend_turns st l (VList vs) (CList s) F (PIdx i) w T G) as (l' & cw & Fw & Hg & Tw & Sub & Out & Back).
    assert (l' = LIdx s i) as -> by (eapply get_elem_pos; eauto).
    destruct (IH st (LIdx s i) w cw Fw uri Tw D) as (st1 & Fw' & E1 & Tu1).
    destruct (Back [] st1 (vnorm uri w) cw Fw') as (v1 & F1 & Ev & Tu & _); [destruct l; cbn; auto|intros t _ []|exact Tu1|].
    cbn in Ev. injection Ev as <-. inversion ND as [|? ? Ni ND']; subst. assert (L : (N.to_nat i < List.length vs)%nat) by (apply nth_error_Some; congruence).
    destruct (IHk st1 (vput vs (N.to_nat i) (vnorm uri w)) F1 (proj1 Tu)) as (st2 & m2 & F2 & E2 & Tu2 & L2 & G2); auto.
    { intros k' J. destruct (H k' (or_intror J)) as (w' & G' & D'). exists w'. split; auto. rewrite vput_lt by auto.
      assert (N.to_nat k' <> N.to_nat i) by (intros X; apply N2Nat.inj in X; subst; contradiction).
      rewrite <- vput_lt by auto. rewrite nth_vput. destruct (Nat.eqb_spec (N.to_nat k') (N.to_nat i)); [contradiction|].
      rewrite G'. reflexivity. }
    exists st2, m2, F2. split; [cbn [each_m]; rewrite (bind_ok _ _ _ _ _ E1); exact E2|]. split; [eapply turns_trans; eauto|].
    split; [rewrite L2; apply vput_within; auto|].
    intros j. rewrite G2. unfold hit_pos. cbn [existsb]. rewrite nth_vput. destruct (Nat.eqb_spec j (N.to_nat i)) as [->|Nj]; cbn [orb].
    + rewrite G. destruct (existsb _ is) eqn:Ex; auto. apply existsb_exists in Ex. destruct Ex as (i' & I' & Ei). apply Nat.eqb_eq in Ei. apply N2Nat.inj in Ei. subst. contradiction.
    + destruct (nth_error vs j) eqn:Ej; [reflexivity|]. apply nth_error_None in Ej. destruct (Nat.ltb_spec j (N.to_nat i)); [lia|].
      destruct (existsb _ is); reflexivity.
Qed.

Lemma vdepth_get m k w : mget k m = Some w -> (vdepth w <= vdepths (List.map snd m))%nat.
Proof. induction m as [|[k' x] m IH]; cbn; [discriminate|]. destruct (beqb k k'); [intros [= ->]; lia|]. intros G. specialize (IH G). lia. Qed.
Lemma vdepth_nth vs i w : nth_error vs i = Some w -> (vdepth w <= vdepths vs)%nat.
Proof. revert i; induction vs as [|x vs IH]; intros [|i]; cbn; try discriminate; [intros [= ->]; lia|]. intros G. specialize (IH _ G). lia. Qed.
Lemma vdepth_pos v : (1 <= vdepth v)%nat.
Proof. destruct v; cbn; lia. Qed.
Lemma filter_hit k m : hit k (List.filter not_enum m) = (hit k m && not_enum k)%bool.
Proof.
  destruct (hit k m && not_enum k)%bool eqn:E.
  - apply andb_true_iff in E. destruct E as [A B]. apply hit_In. apply hit_In in A. apply filter_In. auto.
  - destruct (hit k (List.filter not_enum m)) eqn:H; auto. apply hit_In, filter_In in H. destruct H as [A B]. apply hit_In in A. rewrite A, B in E. discriminate.
Qed.
Lemma hit_keys {A} k (m : list (bytes * A)) : hit k (mkeys m) = match mget k m with Some _ => true | None => false end.
Proof.
  destruct (mget k m) as [x|] eqn:G.
  - apply hit_In. apply mget_In in G. apply (in_map fst) in G. exact G.
  - destruct (hit k (mkeys m)) eqn:H; auto. apply hit_In in H. apply mget_None_notin in G. contradiction.
Qed.
Lemma nodup_positions {A} (l : list A) : NoDup (positions l).
Proof. apply FinFun.Injective_map_NoDup; [intros x y; apply Nat2N.inj|apply seq_NoDup]. Qed.
Lemma In_positions {A} (l : list A) i : In i (positions l) <-> (N.to_nat i < List.length l)%nat.
Proof.
  unfold positions. rewrite in_map_iff. split; [intros (x & <- & I); apply in_seq in I; rewrite Nat2N.id; lia|].
  intros L. exists (N.to_nat i). split; [apply N2Nat.id|apply in_seq; lia].
Qed.

(** NormSchema normalises a tree in place. *)
Lemma norm_tree f : norms f.
Proof.
  induction f as [|f IH]; intros st l v c F uri T D; [assert (H := vdepth_pos v); lia|]. cbn [norm_schema].
  rewrite (bind_load _ _ _ _ (tr_peek _ _ _ _ _ T)). assert (O := tr_owns _ _ _ _ _ T).
  assert (Sm := owns_sorted _ _ _ _ O).
  destruct v as [| | | | | |vs|m|]; destruct c; cbn [owns] in O; try tauto; try (exists st, F; split; [reflexivity|apply turns_refl, T]).
  - clear O. assert (O := tr_owns _ _ _ _ _ T). apply owns_VList in O. destruct O as (cs & Fs & E & _ & O). rewrite (bind_get_list _ _ _ _ E).
    rewrite vdepth_VList in D. assert (Lc := owns_list_length _ _ _ _ O).
    destruct (each_pos f uri s l IH (positions cs) st vs F T (nodup_positions cs)) as (st' & vs' & F' & E1 & Tu & L & G).
    { intros i I. apply In_positions in I. rewrite Lc in I. apply nth_error_Some in I. destruct (nth_error vs (N.to_nat i)) as [w|] eqn:Ew; [|congruence].
      exists w. split; auto. apply vdepth_nth in Ew. lia. }
    exists st', F'. split; [exact E1|]. cbn [vnorm]. replace (List.map (vnorm uri) vs) with vs'; [exact Tu|].
    apply nth_ext_eq; [rewrite map_length; exact L|]. intros i. rewrite G. rewrite nth_error_map.
    destruct (nth_error vs i) as [w|] eqn:Ew; cbn [option_map]; [|destruct (hit_pos i (positions cs)); reflexivity].
    replace (hit_pos i (positions cs)) with true; auto. symmetry. apply existsb_exists. exists (N.of_nat i). rewrite Nat2N.id, Nat.eqb_refl. split; auto.
    apply In_positions. rewrite Nat2N.id, Lc. apply nth_error_Some. congruence.
  - clear O. rewrite vdepth_VMap in D. apply vsorted_map in Sm. destruct Sm as [Sm _].
    rewrite (bind_ok _ _ _ _ _ (text_at_tree _ _ _ _ _ k_id T)).
    set (b := base_in uri m).
    assert (St1 : exists st1 F1 m1, match text_in k_id m with Some t => put_text s k_id (resolve_uri uri t);; ret (resolve_uri uri t) | None => ret uri end st = (Ok b, st1) /\
      turns st l F [] st1 (VMap m1) (CMap s) F1 /\ msorted m1 /\
      forall k, mget k m1 = match mget k m with Some (VStr t) => if beqb k k_id then Some (VStr b) else Some (VStr t) | o => o end).
    { unfold b, base_in, text_in. destruct (mget k_id m) as [w|] eqn:G.
      - destruct w as [| | | | |t| | |]; try (exists st, F, m; split; [reflexivity|]; split; [apply turns_refl, T|]; split; [exact Sm|];
          intros k; destruct (beqb k k_id) eqn:B; [apply beqb_eq in B; subst; rewrite G; reflexivity|destruct (mget k m) as [[]|]; reflexivity]).
        destruct (put_text_tree st l m s F k_id (resolve_uri uri t) (VStr t) T G) as (st1 & F1 & E1 & Tu1).
        exists st1, F1, (mset k_id (VStr (resolve_uri uri t)) m). split; [rewrite (bind_ok _ _ _ _ _ E1); reflexivity|]. split; [exact Tu1|].
        split; [apply msorted_mset, Sm|]. intros k. rewrite mget_mset by auto. destruct (beqb k k_id) eqn:B.
        + apply beqb_eq in B. subst. rewrite G. reflexivity.
        + destruct (mget k m) as [[]|]; reflexivity.
      - exists st, F, m. split; [reflexivity|]. split; [apply turns_refl, T|]. split; [exact Sm|].
        intros k; destruct (beqb k k_id) eqn:B; [apply beqb_eq in B; subst; rewrite G; reflexivity|destruct (mget k m) as [[]|]; reflexivity]. }
    destruct St1 as (st1 & F1 & m1 & E1 & Tu1 & S1 & G1). cbn zeta. rewrite (bind_ok _ _ _ _ _ E1).
    rewrite (bind_ok _ _ _ _ _ (text_at_tree _ _ _ _ _ k_ref (proj1 Tu1))).
    assert (R : text_in k_ref m1 = text_in k_ref m). { unfold text_in. rewrite G1. destruct (mget k_ref m) as [[]|]; reflexivity. }
    rewrite R. cbn [vnorm]. fold b. unfold text_in in R |- *. unfold is_reference.
    assert (Ext : forall st2 F2 m2, turns st l F [] st2 (VMap m2) (CMap s) F2 -> msorted m2 ->
      (forall k, mget k m2 = match mget k m with Some x => Some (norm_entry (vnorm b) b (match mget k_ref m with Some (VStr _) => true | _ => false end) k x) | None => None end) ->
      turns st l F [] st2 (VMap (List.map (fun kx => (fst kx, norm_entry (vnorm b) b (match mget k_ref m with Some (VStr _) => true | _ => false end) (fst kx) (snd kx))) m)) (CMap s) F2).
    { intros st2 F2 m2 Tu S2 G2. rewrite <- (msorted_ext m2 _ S2 (msorted_map_snd (norm_entry (vnorm b) b (match mget k_ref m with Some (VStr _) => true | _ => false end)) m Sm)); [exact Tu|].
      intros k. rewrite mget_map_snd. apply G2. }
    destruct (mget k_ref m) as [w|] eqn:Gr; [destruct w as [| | | | |t| | |]|].
    6:{ destruct (put_text_tree st1 l m1 s F1 k_ref (resolve_uri b t) (VStr t) (proj1 Tu1)) as (st2 & F2 & E2 & Tu2).
        { rewrite G1, Gr. reflexivity. }
        exists st2, F2. split; [exact E2|]. eapply Ext; [eapply turns_trans; eauto|apply msorted_mset, S1|].
        intros k. rewrite mget_mset by auto. destruct (beqb k k_ref) eqn:B.
        - apply beqb_eq in B. subst. rewrite Gr. reflexivity.
        - rewrite G1. destruct (mget k m) as [x|]; auto. unfold norm_entry. rewrite B. destruct x; auto. destruct (beqb k k_id); reflexivity. }
    all: assert (X : exists st2 F2 m2, (let* m0 := get_map s in each_m (fun k => norm_schema f (LKey s k) b) (List.filter not_enum (mkeys m0))) st1 = (Ok tt, st2) /\
        turns st1 l F1 [] st2 (VMap m2) (CMap s) F2 /\ msorted m2 /\
        forall k, mget k m2 = if (hit k (mkeys m1) && not_enum k)%bool then match mget k m1 with Some w => Some (vnorm b w) | None => None end else mget k m1);
      [ destruct (proj1 (owns_VMap _ _ _ _) (tr_owns _ _ _ _ _ (proj1 Tu1))) as (cm & Fs & Ec & _ & _ & K & _);
        assert (mkeys cm = mkeys m1) as Km by (symmetry; exact K);
        destruct (each_keys f b s l IH (List.filter not_enum (mkeys m1)) st1 m1 F1 (proj1 Tu1)) as (st2 & m2 & F2 & E2 & Tu2 & S2 & G2);
        [ apply NoDup_filter, mkeys_nodup, S1
        | intros k I; apply filter_In in I; destruct I as [I _]; apply hit_In in I; rewrite hit_keys in I; destruct (mget k m1) as [w1|] eqn:Gk; [|discriminate];
          exists w1; split; [reflexivity|]; rewrite G1 in Gk; destruct (mget k m) as [xx|] eqn:Gm; [|discriminate]; apply vdepth_get in Gm;
          assert (Px := vdepth_pos xx);
          destruct xx; try (injection Gk as <-; lia); destruct (beqb k k_id); injection Gk as <-; cbn [vdepth] in *; lia
        | exists st2, F2, m2; rewrite (bind_get_map _ _ _ _ Ec), Km; split; [exact E2|]; split; [exact Tu2|]; split; [exact S2|];
          intros k; rewrite G2, filter_hit; reflexivity ] |];
      destruct X as (st2 & F2 & m2 & E2 & Tu2 & S2 & G2); exists st2, F2; (split; [exact E2|]); (eapply Ext; [eapply turns_trans; eauto|exact S2|]);
      intros k; rewrite G2, hit_keys, G1; (destruct (mget k m) as [xx|] eqn:Gm; [|reflexivity]); unfold norm_entry, not_enum; cbn [orb];
      (destruct xx; [| | | | |destruct (beqb k k_id) eqn:B; [destruct (beqb k k_enum); reflexivity|];
        destruct (beqb k k_ref) eqn:B2; [apply beqb_eq in B2; subst; congruence|destruct (beqb k k_enum); reflexivity]| | |]; destruct (beqb k k_enum); reflexivity).
Qed.
