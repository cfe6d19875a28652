(** What one JSON Pointer operation does to a document that is a tree. *)
From Coq Require Import Permutation.
From Verif Require Import Base CNum Float Value Blob Path Numeric Convert Emit Uri Heap HeapProofs HeapSpec ValueOps HeapTree
  HeapErase HeapTreeFacts Pointer PointerWalk.
Open Scope N_scope.

(** One storage has become [x], everything else is as it was. *)
Definition upd (st : hstate) (s : nat) (x : storage) (st' : hstate) : Prop :=
  h_vars st' = h_vars st /\ hlen st' = hlen st /\
  forall t, nth_error (h_heap st') t = if Nat.eqb t s then Some x else nth_error (h_heap st) t.

Lemma nth_ext_eq {A} (l m : list A) : (forall i, nth_error l i = nth_error m i) -> l = m.
Proof.
  revert m; induction l as [|x l IH]; intros [|y m] H; auto; try (specialize (H O); discriminate).
  f_equal; [specialize (H O); cbn in H; congruence|]. apply IH. intros i. apply (H (S i)).
Qed.
Lemma hstate_ext st st' : h_vars st' = h_vars st -> (forall t, nth_error (h_heap st') t = nth_error (h_heap st) t) -> st' = st.
Proof. destruct st as [v h], st' as [v' h']; cbn. intros -> H. f_equal. apply nth_ext_eq, H. Qed.
Lemma upd_upd st s x st1 y st2 : upd st s x st1 -> upd st1 s y st2 -> upd st s y st2.
Proof.
  intros (V1 & L1 & H1) (V2 & L2 & H2). split; [congruence|]. split; [congruence|]. intros t. rewrite H2, H1. destruct (Nat.eqb t s); auto.
Qed.
Lemma upd_same st s x st' : upd st s x st' -> nth_error (h_heap st) s = Some x -> st' = st.
Proof. intros (V & _ & H) E. apply hstate_ext; auto. intros t. rewrite H. destruct (Nat.eqb_spec t s); congruence. Qed.
Lemma upd_at st s x st' : upd st s x st' -> nth_error (h_heap st') s = Some x.
Proof. intros (_ & _ & H). rewrite H, Nat.eqb_refl. reflexivity. Qed.
Lemma put_storage_upd st s x y : nth_error (h_heap st) s = Some y -> exists st', put_storage s x st = (Ok tt, st') /\ upd st s x st'.
Proof. intros E. destruct (put_storage_ok st s x y E) as (st' & E' & V & L & H). exists st'. unfold upd. auto. Qed.

Lemma contains_ref st l c e s x : peek st l = Some c -> base c e = Some s -> nth_error (h_heap st) s = Some x ->
  (match e, x with PKey _, StMap _ => True | PIdx _, StList _ => True | _, _ => False end) ->
  contains (RRef l) e st = (Ok (match slot_get x e with Some _ => true | None => false end), st).
Proof.
  intros P B X K. unfold contains, resolve_throw. unfold bind at 1. cbn [ret]. rewrite (bind_load _ _ _ _ P).
  destruct e as [k|i]; destruct c; try discriminate; injection B as ->; destruct x; try tauto; cbn [slot_get].
  - rewrite (bind_get_map _ _ _ _ X). reflexivity.
  - rewrite (bind_get_list _ _ _ _ X). unfold ret. f_equal. f_equal. destruct (nthN l0 i) eqn:G; [eapply nthN_lt|eapply nthN_ge]; eauto.
Qed.
Lemma get_ref st l c e s x cw : peek st l = Some c -> base c e = Some s -> nth_error (h_heap st) s = Some x ->
  slot_get x e = Some cw -> get (RRef l) e st = (Ok cw, st).
Proof.
  intros P B X G. unfold get, resolve_throw. unfold bind at 1. cbn [ret].
  rewrite (bind_ok _ _ _ _ _ (get_elem_slot st l c e true s x cw P B X G)). unfold load. rewrite (slot_peek _ _ _ _ X), G. reflexivity.
Qed.

(** ** Adding *)
Lemma turns_becomes st l F G st' v' c' F' : turns st l F G st' v' c' F' -> becomes st l F G st' v'.
Proof. intros H. exists c', F'. exact H. Qed.

Lemma add_map st l m c F k x cx G acc : tree st l (VMap m) c F -> owns (h_heap st) x cx G -> NoDup G -> apart F G -> outside l G ->
  exists s cm st', c = CMap s /\ nth_error (h_heap st) s = Some (StMap cm) /\ In s F /\ msorted cm /\
    pointer_op [k] (RRef l) (PAdd cx) acc st = (Ok (OpRes (RRef (LKey s k)) (acc ++ [PKey k]) cx (mget k cm) true), st') /\
    upd st s (StMap (mset k cx cm)) st' /\ becomes st l F G st' (VMap (mset k x m)).
Proof.
  intros T Ox NG AG OG. assert (P := tr_peek _ _ _ _ _ T). assert (O := tr_owns _ _ _ _ _ T). destruct c; try (destruct O; fail).
  assert (O' := O). apply owns_VMap in O'. destruct O' as (cm & Fs & X & EF & HS & HK & _). exists s, cm.
  destruct (put_elem_turns st l _ _ F (PKey k) s x cx G T eq_refl I Ox NG AG OG) as (st' & v' & F' & E & Ev & Tu & _ & _).
  exists st'. split; auto. split; auto. split; [rewrite EF; cbn; auto|]. split; [eapply msorted_keys; eauto|].
  cbn [vset_elem] in Ev. injection Ev as <-. cbn [put_elem] in E.
  destruct (map_set_key_ok st s cm k cx X) as (st1 & E1 & U). rewrite E in E1. injection E1 as <-.
  split; [|split; [exact U|eapply turns_becomes; eauto]].
  cbn [pointer_op]. rewrite (bind_ok _ _ _ _ _ (exists_rref l st)), (bind_ok _ _ _ _ _ (type_rref _ _ _ P)). cbn [num_view map_op].
  assert (C := contains_ref st l _ (PKey k) s _ P eq_refl X I). cbn [slot_get] in C. unfold map_op. rewrite (bind_ok _ _ _ _ _ C).
  assert (Old : (if match mget k cm with Some _ => true | None => false end
                 then let* o := get (RRef l) (PKey k) in ret (Some o) else ret None) st = (Ok (mget k cm), st)).
  { destruct (mget k cm) as [c0|] eqn:Gk; [|reflexivity].
    rewrite (bind_ok _ _ _ _ _ (get_ref st l _ (PKey k) s _ c0 P eq_refl X Gk)). reflexivity. }
  rewrite (bind_ok _ _ _ _ _ Old).
  assert (S : (let* l0 := resolve_create (RRef l) in set_key l0 k cx) st = (Ok tt, st')).
  { cbn [resolve_create]. unfold bind at 1. cbn [ret]. unfold set_key. rewrite (bind_load _ _ _ _ P). exact E. }
  rewrite (bind_ok _ _ _ _ _ S).
  destruct Tu as (T' & _). assert (P' := tr_peek _ _ _ _ _ T').
  rewrite (bind_ok _ _ _ (RRef (LKey s k)) st'); [reflexivity|]. rewrite at_rref.
  apply (get_ref_slot st' l (CMap s) (PKey k) s (StMap (mset k cx cm)) cx None P' eq_refl); [exact (upd_at _ _ _ _ U)|apply mget_mset_same].
Qed.

(** Inserting into a list. *)
Definition insert_at {A} (i : nat) (x : A) (l : list A) : list A := firstn i l ++ x :: skipn i l.
Lemma owns_list_split h vs cs Fs i : owns_list h vs cs Fs ->
  owns_list h (firstn i vs) (firstn i cs) (firstn i Fs) /\ owns_list h (skipn i vs) (skipn i cs) (skipn i Fs).
Proof.
  revert vs cs Fs; induction i as [|i IH]; intros vs cs Fs O; [cbn; auto|].
  destruct vs, cs, Fs; cbn [owns_list] in O; try tauto; cbn [firstn skipn owns_list]; auto.
  destruct O as [A B]. destruct (IH _ _ _ B). repeat split; auto.
Qed.
Lemma insert_turns st l vs s F i x cx G : tree st l (VList vs) (CList s) F -> owns (h_heap st) x cx G -> NoDup G -> apart F G -> outside l G ->
  (N.to_nat i <= List.length vs)%nat -> exists cs st' F', nth_error (h_heap st) s = Some (StList cs) /\ In s F /\ List.length cs = List.length vs /\
    list_insert s i cx st = (Ok tt, st') /\ upd st s (StList (insert_at (N.to_nat i) cx cs)) st' /\
    turns st l F G st' (VList (insert_at (N.to_nat i) x vs)) (CList s) F'.
Proof.
  intros T Ox NG AG OG Li. assert (O := tr_owns _ _ _ _ _ T). apply owns_VList in O. destruct O as (cs & Fs & X & EF & O).
  assert (Lc := owns_list_length _ _ _ _ O).
  destruct (put_storage_upd st s (StList (insert_at (N.to_nat i) cx cs)) _ X) as (st' & E & U).
  assert (InF : In s F) by (rewrite EF; cbn; auto). assert (ND := tr_nodup _ _ _ _ _ T).
  destruct U as (V & L & H).
  assert (Hn : forall t, t <> s -> nth_error (h_heap st') t = nth_error (h_heap st) t).
  { intros t N. rewrite H. destruct (Nat.eqb_spec t s); congruence. }
  exists cs, st', (s :: List.concat (firstn (N.to_nat i) Fs) ++ G ++ List.concat (skipn (N.to_nat i) Fs)). split; auto. split; auto. split; auto. split.
  { unfold list_insert. rewrite (bind_get_list _ _ _ _ X). destruct (N.leb_spec i (lsize cs)) as [_|Hl]; [exact E|unfold lsize in Hl; lia]. }
  split; [unfold upd; auto|].
  assert (EC : List.concat Fs = List.concat (firstn (N.to_nat i) Fs) ++ List.concat (skipn (N.to_nat i) Fs)).
  { rewrite <- concat_app, firstn_skipn. reflexivity. }
  assert (Nc : forall t y, nth_error (h_heap st) t = Some y -> ~ container y -> nth_error (h_heap st') t = Some y).
  { intros t y Ey C. rewrite Hn; auto. intros ->. rewrite X in Ey. injection Ey as <-. apply C. exact I. }
  rewrite EF, EC in ND. change (s :: List.concat (firstn (N.to_nat i) Fs) ++ List.concat (skipn (N.to_nat i) Fs))
    with (s :: List.concat (firstn (N.to_nat i) Fs) ++ [] ++ List.concat (skipn (N.to_nat i) Fs)) in ND.
  destruct (NoDup_mid _ _ _ _ ND) as (_ & _ & _ & N4 & N5).
  apply tree_one with (v := VList vs) (s := s); auto.
  - apply owns_VList. exists (insert_at (N.to_nat i) cx cs), (firstn (N.to_nat i) Fs ++ G :: skipn (N.to_nat i) Fs).
    split; [rewrite H, Nat.eqb_refl; reflexivity|]. split; [rewrite concat_app; reflexivity|].
    destruct (owns_list_split _ _ _ _ (N.to_nat i) O) as [O1 O2].
    assert (Fr : forall t, In t (List.concat (firstn (N.to_nat i) Fs)) \/ In t (List.concat (skipn (N.to_nat i) Fs)) -> nth_error (h_heap st') t = nth_error (h_heap st) t).
    { intros t J. apply Hn. intros ->. apply N4. rewrite in_app_iff. exact J. }
    apply owns_list_app; [eapply owns_list_frame'; eauto|]. split; [|eapply owns_list_frame'; eauto].
    eapply owns_frame; [exact Nc| |exact Ox]. intros t J. apply Hn. intros ->. apply (AG s); auto.
  - apply NoDup_mid_back; auto. intros t J K. apply (AG t); auto. rewrite EF, EC. right. exact J.
  - intros t J. rewrite EF, EC. cbn in J |- *. rewrite !in_app_iff in *. tauto.
Qed.

Lemma index_not_dash k i : is_index k = Some i -> beqb k (s2b "-") = false.
Proof. intros H. destruct (beqb k (s2b "-")) eqn:B; auto. apply beqb_eq in B. subst k. discriminate. Qed.

(** Position of an insertion: an index, or a dash for the end. *)
Definition place (k : bytes) (n : nat) (i : N) : Prop := is_index k = Some i \/ k = s2b "-" /\ N.to_nat i = n.

Lemma insert_end {A} (x : A) l : insert_at (List.length l) x l = l ++ [x].
Proof. unfold insert_at. rewrite firstn_all, skipn_all. reflexivity. Qed.

Lemma add_list st l vs c F k i x cx G acc : tree st l (VList vs) c F -> owns (h_heap st) x cx G -> NoDup G -> apart F G -> outside l G ->
  place k (List.length vs) i -> (N.to_nat i <= List.length vs)%nat -> N.of_nat (List.length vs) < 2^32 - 1 ->
  exists s cs st' r, c = CList s /\ nth_error (h_heap st) s = Some (StList cs) /\ In s F /\ List.length cs = List.length vs /\
    pointer_op [k] (RRef l) (PAdd cx) acc st = (Ok (OpRes r (acc ++ [PIdx i]) cx (nthN cs i) true), st') /\
    upd st s (StList (insert_at (N.to_nat i) cx cs)) st' /\ becomes st l F G st' (VList (insert_at (N.to_nat i) x vs)).
Proof.
  intros T Ox NG AG OG Pl Li Sh. assert (P := tr_peek _ _ _ _ _ T). assert (O := tr_owns _ _ _ _ _ T). destruct c; try (destruct O; fail).
  destruct (insert_turns st l vs s F i x cx G T Ox NG AG OG Li) as (cs & st' & F' & X & InF & Lc & E & U & Tu).
  assert (T' := proj1 Tu). assert (P' := tr_peek _ _ _ _ _ T'). assert (X' := upd_at _ _ _ _ U).
  cbn [pointer_op]. rewrite (bind_ok _ _ _ _ _ (exists_rref l st)), (bind_ok _ _ _ _ _ (type_rref _ _ _ P)). cbn [num_view].
  assert (At : forall j, exists y, at_elem (RRef l) (PIdx j) st' = (Ok y, st')).
  { intros j. rewrite at_rref. destruct (nthN (insert_at (N.to_nat i) cx cs) j) eqn:Gj.
    - eexists. eapply get_ref_slot; eauto; reflexivity.
    - eexists. eapply get_ref_noslot; eauto; reflexivity. }
  destruct Pl as [Hk|[-> Hn]].
  - rewrite (index_not_dash _ _ Hk), Hk. replace (wrap32 i) with i by (unfold wrap32; rewrite N.mod_small; lia). unfold list_op.
    replace (wrap32 i) with i by (unfold wrap32; rewrite N.mod_small; lia).
    destruct (At i) as (r & Er). exists s, cs, st', r. repeat split; auto; try apply U; [|eapply turns_becomes; eauto].
    assert (C := contains_ref st l _ (PIdx i) s _ P eq_refl X I). cbn [slot_get] in C. rewrite (bind_ok _ _ _ _ _ C).
    assert (Old : (if match nthN cs i with Some _ => true | None => false end
                   then let* o := get (RRef l) (PIdx i) in ret (Some o) else ret None) st = (Ok (nthN cs i), st)).
    { destruct (nthN cs i) as [c0|] eqn:Gk; [|reflexivity].
      rewrite (bind_ok _ _ _ _ _ (get_ref st l _ (PIdx i) s _ c0 P eq_refl X Gk)). reflexivity. }
    rewrite (bind_ok _ _ _ _ _ Old). cbn [resolve_create]. unfold bind at 1. cbn [ret].
    rewrite (bind_ok _ _ _ s st). 2:{ unfold as_list. rewrite (bind_load _ _ _ _ P). reflexivity. }
    rewrite (bind_ok _ _ _ _ _ E), (bind_ok _ _ _ _ _ Er). reflexivity.
  - change (beqb (s2b "-") (s2b "-")) with true. cbv iota. unfold dash_op.
    assert (Ei : i = N.of_nat (List.length cs)) by lia.
    assert (Sz : size_of l st = (Ok i, st)).
    { unfold size_of. rewrite (bind_load _ _ _ _ P), (bind_get_list _ _ _ _ X). unfold lsize, wrap32. rewrite N.mod_small, Ei; [reflexivity|lia]. }
    assert (Sz' : size_of l st' = (Ok (i + 1), st')).
    { unfold size_of. rewrite (bind_load _ _ _ _ P'), (bind_get_list _ _ _ _ X'). unfold lsize, insert_at, wrap32. rewrite app_length, firstn_length. cbn [List.length].
      rewrite skipn_length. replace (N.of_nat _) with (i + 1) by lia. rewrite N.mod_small; [reflexivity|lia]. }
    destruct (At (i + 1)) as (r & Er). exists s, cs, st', r. repeat split; auto; try apply U; [|eapply turns_becomes; eauto].
    cbn [resolve_throw]. unfold bind at 1. cbn [ret]. rewrite (bind_ok _ _ _ _ _ Sz).
    assert (Ap : (let* l0 := resolve_create (RRef l) in append l0 cx) st = (Ok tt, st')).
    { cbn [resolve_create]. unfold bind at 1. cbn [ret]. unfold append.
      rewrite (bind_ok _ _ _ s st). 2:{ unfold as_list. rewrite (bind_load _ _ _ _ P). reflexivity. }
      rewrite (bind_get_list _ _ _ _ X). unfold list_insert in E. rewrite (bind_get_list _ _ _ _ X) in E.
      destruct (i <=? lsize cs); [|discriminate]. rewrite <- E. f_equal. f_equal. replace (N.to_nat i) with (List.length cs) by lia.
      symmetry. apply insert_end. }
    rewrite (bind_ok _ _ _ _ _ Ap). cbn [resolve_throw]. unfold bind at 1. cbn [ret]. rewrite (bind_ok _ _ _ _ _ Sz'), (bind_ok _ _ _ _ _ Er).
    unfold ret. f_equal. f_equal. unfold nthN. replace (nth_error cs (N.to_nat i)) with (@None cell); [reflexivity|]. symmetry. apply nth_error_None. lia.
Qed.

(** ** The root *)
Lemma root_add st l v c F x cx G acc : tree st l v c F -> owns (h_heap st) x cx G -> NoDup G -> apart F G -> outside l G ->
  exists st', pointer_op [] (RRef l) (PAdd cx) acc st = (Ok (OpRes (RRef l) acc cx (Some c) true), st') /\
    store l cx st = (Ok tt, st') /\ becomes st l F G st' x.
Proof.
  intros T Ox NG AG OG. assert (P := tr_peek _ _ _ _ _ T).
  destruct (set_path_tree [] st l v c F x cx G T (Forall_nil _) Ox NG AG OG) as (st' & E & B). exists st'. split; [|split; auto].
  cbn [pointer_op root_op]. unfold root_op. rewrite (bind_ok _ _ _ _ _ (exists_rref l st)).
  assert (Old : (let* o := read_ref (RRef l) in ret (Some o)) st = (Ok (Some c), st)).
  { rewrite (bind_ok _ _ _ _ _ (read_rref _ _ _ P)). reflexivity. }
  rewrite (bind_ok _ _ _ _ _ Old).
  assert (W : write_ref (RRef l) cx st = (Ok tt, st')).
  { unfold write_ref, resolve_create. unfold bind at 1. cbn [ret]. exact E. }
  rewrite (bind_ok _ _ _ _ _ W). reflexivity.
Qed.

(** ** Removing *)
Lemma owns_cut h m s F k w : owns h (VMap m) (CMap s) F -> mget k m = Some w -> exists cm A Fw B cw,
  nth_error h s = Some (StMap cm) /\ F = s :: A ++ Fw ++ B /\ mget k cm = Some cw /\ owns h w cw Fw /\ msorted cm /\
  forall h', nth_error h' s = Some (StMap (mdel k cm)) ->
    (forall t y, nth_error h t = Some y -> ~ container y -> nth_error h' t = Some y) ->
    (forall t, In t (A ++ B) -> nth_error h' t = nth_error h t) -> owns h' (VMap (mdel k m)) (CMap s) (s :: A ++ B).
Proof.
  intros O W. apply owns_VMap in O. destruct O as (cm & Fs & E & -> & HS & HK & O). rename m into vm.
  assert (HS' := msorted_keys _ _ HK HS).
  destruct (mset_split k vm HS) as (vm1 & vm2 & Lo & Hi & [Ev|[w0 Ev]]).
  { rewrite Ev, mget_below, mget_above in W by auto. discriminate. }
  assert (w0 = w) as ->. { rewrite Ev, mget_below, mget_here in W by auto. congruence. }
  assert (Hd : forall A (m1 m2 : list (bytes * A)) y, (forall k', In k' (mkeys m1) -> bcmp k' k = Lt) -> mdel k (m1 ++ (k, y) :: m2) = m1 ++ m2).
  { induction m1 as [|[k1 z1] m1 IH]; intros m2 y L; cbn; [rewrite beqb_refl; reflexivity|].
    destruct (beqb k k1) eqn:B. { apply beqb_eq in B. subst. specialize (L k1 (or_introl eq_refl)). rewrite bcmp_refl in L. discriminate. }
    f_equal. apply IH. intros; apply L; cbn; auto. }
  assert (HK0 := HK). rewrite Ev, map_app in HK, O. symmetry in HK. destruct (map_app_inv _ _ _ _ HK) as (cm1 & cm2' & Ec & K1 & K2).
  destruct cm2' as [|[k' cw] cm2]; [discriminate|]. cbn in K2. injection K2 as -> K2.
  rewrite Ec, map_app in O. apply owns_list_app_inv in O. destruct O as (c1 & c2 & Fs1 & Fs2 & Ecc & -> & L1 & O1 & O2).
  assert (Ecs : c1 = List.map snd cm1 /\ c2 = List.map snd ((k, cw) :: cm2)).
  { assert (H : List.length c1 = List.length (List.map snd cm1)).
    { rewrite L1, !map_length. rewrite <- (map_length fst cm1), K1, map_length. reflexivity. }
    clear -Ecc H. revert c1 Ecc H. generalize (List.map snd cm1). induction l; intros [|y c1] Ecc H; try discriminate; cbn in *; auto.
    injection Ecc as -> Ecc. destruct (IHl c1); auto. split; congruence. }
  destruct Ecs as [-> ->]. destruct Fs2 as [|Fw Fs2]; cbn [owns_list List.map] in O2; try tauto. destruct O2 as [Ow O2].
  assert (Lo' : forall k', In k' (mkeys cm1) -> bcmp k' k = Lt) by (unfold mkeys in *; rewrite K1; auto).
  exists cm, (List.concat Fs1), Fw, (List.concat Fs2), cw. split; [exact E|]. split; [rewrite concat_app; reflexivity|].
  split; [rewrite Ec, mget_below, mget_here by auto; reflexivity|]. split; [exact Ow|]. split; [exact HS'|].
  intros h' E' NC D. apply owns_VMap. exists (mdel k cm), (Fs1 ++ Fs2).
  split; [exact E'|]. split; [rewrite concat_app; reflexivity|]. split; [apply msorted_mdel; auto|].
  rewrite Ev, Ec, !Hd by auto. rewrite !map_app. split; [congruence|].
  apply owns_list_app; eapply owns_list_frame'; eauto; intros; apply D, in_or_app; auto.
Qed.

Lemma remove_map st l m c F k w acc : tree st l (VMap m) c F -> mget k m = Some w ->
  exists s cm cw st' Fw F', c = CMap s /\ nth_error (h_heap st) s = Some (StMap cm) /\ In s F /\ msorted cm /\ mget k cm = Some cw /\
    pointer_op [k] (RRef l) PRemove acc st = (Ok (OpRes (RProxy l [PKey k]) (acc ++ [PKey k]) cw None true), st') /\
    upd st s (StMap (mdel k cm)) st' /\ turns st l F [] st' (VMap (mdel k m)) c F' /\
    owns (h_heap st) w cw Fw /\ owns (h_heap st') w cw Fw /\ NoDup Fw /\ apart F' Fw /\ (forall t, In t Fw -> In t F).
Proof.
  intros T W. assert (P := tr_peek _ _ _ _ _ T). assert (O := tr_owns _ _ _ _ _ T). destruct c; try (destruct O; fail).
  destruct (owns_cut _ _ _ _ _ _ O W) as (cm & A & Fw & B & cw & X & EF & Gk & Ow & Sm & R).
  destruct (put_storage_upd st s (StMap (mdel k cm)) _ X) as (st' & E & U).
  assert (ND := tr_nodup _ _ _ _ _ T). rewrite EF in ND. destruct (NoDup_mid _ _ _ _ ND) as (N1 & N2 & N3 & N4 & N5).
  assert (InF : In s F) by (rewrite EF; cbn; auto).
  assert (Hn : forall t, t <> s -> nth_error (h_heap st') t = nth_error (h_heap st) t).
  { intros t N. rewrite (proj2 (proj2 U)). destruct (Nat.eqb_spec t s); congruence. }
  assert (Nc : forall t y, nth_error (h_heap st) t = Some y -> ~ container y -> nth_error (h_heap st') t = Some y).
  { intros t y Ey C. rewrite Hn; auto. intros ->. rewrite X in Ey. injection Ey as <-. apply C. exact I. }
  assert (Tu : turns st l F [] st' (VMap (mdel k m)) (CMap s) (s :: A ++ B)).
  { apply tree_one with (v := VMap m) (s := s); auto.
    - apply R; auto. apply (upd_at _ _ _ _ U). intros t J. apply Hn. intros ->. auto.
    - constructor; auto.
    - intros t J. left. rewrite EF. cbn in J |- *. rewrite !in_app_iff in *. tauto.
    - destruct l; cbn; auto.
    - apply U.
    - apply U. }
  exists s, cm, cw, st', Fw, (s :: A ++ B). split; auto. split; auto. split; auto. split; auto. split; auto.
  split; [|split; [exact U|split; [exact Tu|split; [exact Ow|split; [|split; [exact N1|split]]]]]].
  - cbn [pointer_op]. rewrite (bind_ok _ _ _ _ _ (exists_rref l st)), (bind_ok _ _ _ _ _ (type_rref _ _ _ P)). cbn [num_view]. unfold map_op.
    assert (E1 := get_ref_slot st l _ (PKey k) s _ cw None P eq_refl X Gk). rewrite <- at_rref in E1. rewrite (bind_ok _ _ _ _ _ E1).
    assert (E2 : read_ref (RRef (slot s (PKey k))) st = (Ok cw, st)) by (apply read_rref; rewrite (slot_peek _ _ _ _ X); exact Gk).
    rewrite (bind_ok _ _ _ _ _ E2).
    assert (E3 : (let* l0 := resolve_throw (RRef l) in erase_key l0 k) st = (Ok tt, st')).
    { cbn [resolve_throw]. unfold bind at 1. cbn [ret]. unfold erase_key. rewrite (bind_load _ _ _ _ P), (bind_get_map _ _ _ _ X). exact E. }
    rewrite (bind_ok _ _ _ _ _ E3). destruct Tu as (T' & _). assert (P' := tr_peek _ _ _ _ _ T').
    rewrite (bind_ok _ _ _ (RProxy l [PKey k]) st'); [reflexivity|]. rewrite at_rref.
    apply (get_ref_noslot st' l (CMap s) (PKey k) s (StMap (mdel k cm)) P' eq_refl); [apply (upd_at _ _ _ _ U)|exact I|].
    cbn [slot_get]. rewrite mget_mdel, beqb_refl; auto.
  - eapply owns_frame; [exact Nc| |exact Ow]. intros t J. apply Hn. intros ->. auto.
  - intros t [<-|J]; auto.
  - intros t J. rewrite EF. cbn. rewrite !in_app_iff. auto.
Qed.

Lemma root_remove st l v c F acc : tree st l v c F -> exists st',
  pointer_op [] (RRef l) PRemove acc st = (Ok (OpRes (RRef l) acc c None true), st') /\ store l CNull st = (Ok tt, st') /\
  turns st l F [] st' VNull CNull [] /\ owns (h_heap st') v c F.
Proof.
  intros T. assert (P := tr_peek _ _ _ _ _ T).
  destruct (set_path_tree [] st l v c F VNull CNull [] T (Forall_nil _) eq_refl (NoDup_nil _)) as (st' & E & B).
  { intros t _ []. } { destruct l; cbn; auto. }
  exists st'. destruct B as (c' & F' & Tu). assert (c' = CNull /\ F' = []) as [-> ->] by (apply (tree_null _ _ _ _ (proj1 Tu))).
  split; [|split; [exact E|split; [exact Tu|]]].
  - cbn [pointer_op]. unfold root_op. rewrite (bind_ok _ _ _ _ _ (read_rref _ _ _ P)).
    assert (W : write_ref (RRef l) CNull st = (Ok tt, st')).
    { unfold write_ref, resolve_create. unfold bind at 1. cbn [ret]. exact E. }
    rewrite (bind_ok _ _ _ _ _ W). reflexivity.
  - cbn [set_path] in E. unfold assign in E. destruct (store_ok st l c CNull P) as (st1 & E1 & V & H & HL). rewrite E in E1. injection E1 as <-.
    eapply owns_frame; [| |apply (tr_owns _ _ _ _ _ T)].
    + intros t y Ey C. rewrite H, Ey. apply patch_keep, C.
    + intros t J. rewrite H. eapply patch_out; eauto. apply T.
Qed.

(** ** Looking and failing *)
Definition elem_in (v : value) (k : bytes) : option pelem :=
  match elem_for v k with Some e => match vchild v e with Some _ => Some e | None => None end | None => None end.

Lemma elem_dash v k e w : elem_for v k = Some e -> vchild v e = Some w -> match v with VList _ => beqb k (s2b "-") = false | _ => True end.
Proof.
  destruct v; auto. cbn [elem_for]. destruct (is_index k) eqn:I; [|discriminate]. intros _ _. eapply index_not_dash; eauto.
Qed.

Lemma look st l v c F k e w acc : tree st l v c F -> elem_for v k = Some e -> vchild v e = Some w -> exists s cw Fw,
  base c e = Some s /\ tree st (slot s e) w cw Fw /\ (forall t, In t Fw -> In t F) /\ ~ In s Fw /\ In s F /\
  pointer_op [k] (RRef l) PGet acc st = (Ok (OpRes (RRef (slot s e)) (acc ++ [e]) cw None true), st) /\
  forall cx, pointer_op [k] (RRef l) (PTest cx) acc st =
    (let* z := compare cw cx in ret (OpRes (RRef (slot s e)) (acc ++ [e]) cx None (z =? 0)%Z)) st.
Proof.
  intros T EF W. destruct (descend_slot st l v c F e w T W) as (s & x & cw & Fw & B & X & G & InS & Ns & Tw & Inc & OG & Up & _).
  assert (P := tr_peek _ _ _ _ _ T). exists s, cw, Fw. split; auto. split; auto. split; auto. split; auto. split; auto.
  assert (E1 := get_ref_slot st l c e s x cw None P B X G). rewrite <- at_rref in E1.
  assert (E2 : read_ref (RRef (slot s e)) st = (Ok cw, st)) by (apply read_rref, Tw).
  assert (ED := elem_dash v k e w EF W). assert (O := tr_owns _ _ _ _ _ T).
  split; [|intros cx]; cbn [pointer_op]; rewrite (bind_ok _ _ _ _ _ (exists_rref l st)), (bind_ok _ _ _ _ _ (type_rref _ _ _ P));
    destruct v; try discriminate; destruct c; try (destruct O; fail); cbn [num_view elem_for] in *.
  - rewrite ED. destruct (is_index k) eqn:Ix; [|discriminate]. injection EF as <-. unfold list_op. rewrite (bind_ok _ _ _ _ _ E1), (bind_ok _ _ _ _ _ E2). reflexivity.
  - injection EF as <-. unfold map_op. rewrite (bind_ok _ _ _ _ _ E1), (bind_ok _ _ _ _ _ E2). reflexivity.
  - rewrite ED. destruct (is_index k) eqn:Ix; [|discriminate]. injection EF as <-. unfold list_op. rewrite (bind_ok _ _ _ _ _ E1), (bind_ok _ _ _ _ _ E2). reflexivity.
  - injection EF as <-. unfold map_op. rewrite (bind_ok _ _ _ _ _ E1), (bind_ok _ _ _ _ _ E2). reflexivity.
Qed.

(** An operation other than adding at something that is not there throws and changes nothing. *)
Lemma look_fails st l v c F k op acc : tree st l v c F -> elem_in v k = None -> (forall cx, op <> PAdd cx) -> exists x,
  pointer_op [k] (RRef l) op acc st = (Throw x, st).
Proof.
  intros T EI NA. assert (P := tr_peek _ _ _ _ _ T). assert (O := tr_owns _ _ _ _ _ T).
  cbn [pointer_op]. rewrite (bind_ok _ _ _ _ _ (exists_rref l st)), (bind_ok _ _ _ _ _ (type_rref _ _ _ P)).
  destruct v; destruct c; try (destruct O; fail); cbn [num_view]; try (exists RuntimeError; reflexivity).
  - unfold elem_in in EI. cbn [elem_for] in EI. destruct (beqb k (s2b "-")) eqn:D.
    { exists RuntimeError. unfold dash_op. cbn [resolve_throw]. unfold bind at 1. cbn [ret].
      apply owns_VList in O. destruct O as (cs & Fs & X & _).
      assert (Sz : exists n, size_of l st = (Ok n, st)).
      { unfold size_of. rewrite (bind_load _ _ _ _ P), (bind_get_list _ _ _ _ X). eexists. reflexivity. }
      destruct Sz as [n Sz]. rewrite (bind_ok _ _ _ _ _ Sz). destruct op; try reflexivity. destruct (NA c eq_refl). }
    destruct (is_index k) as [i|] eqn:Ix; [|exists RuntimeError; reflexivity].
    assert (V0 : vchild (VList l0) (PIdx (wrap32 i)) = None). { destruct (vchild (VList l0) (PIdx (wrap32 i))); [discriminate|reflexivity]. }
    assert (O' := O). apply owns_VList in O'. destruct O' as (cs & Fs & X & _ & Ol). assert (Lc := owns_list_length _ _ _ _ Ol).
    cbn [vchild] in V0. apply nth_error_None in V0.
    assert (G : nthN cs (wrap32 i) = None) by (unfold nthN; apply nth_error_None; lia).
    assert (E1 := get_ref_noslot st l _ (PIdx (wrap32 i)) s _ P eq_refl X I G). rewrite <- at_rref in E1.
    assert (E2 : read_ref (RProxy l [PIdx (wrap32 i)]) st = (Throw OutOfRange, st)).
    { unfold read_ref. apply bind_throw. cbn [resolve_throw]. apply bind_throw. cbn [get_path get_elem]. apply bind_throw.
      unfold get_index. rewrite (bind_load _ _ _ _ P), (bind_get_list _ _ _ _ X), (nthN_ge _ _ G). reflexivity. }
    unfold list_op. destruct op as [cx| |cx|].
    + destruct (NA cx eq_refl).
    + exists UnexpectedTypeError. apply bind_throw. rewrite at_rref. cbn [get_ref_elem]. unfold get_ref_key. rewrite (bind_load _ _ _ _ P). reflexivity.
    + exists OutOfRange. rewrite (bind_ok _ _ _ _ _ E1). apply bind_throw, E2.
    + exists OutOfRange. rewrite (bind_ok _ _ _ _ _ E1). apply bind_throw, E2.
  - unfold elem_in in EI. cbn [elem_for] in EI.
    assert (V0 : vchild (VMap m) (PKey k) = None). { destruct (vchild (VMap m) (PKey k)); [discriminate|reflexivity]. }
    destruct (owns_slot _ _ _ _ (PKey k) s O eq_refl) as (x & A & Fw & D & X & _ & _ & _ & H & _). rewrite V0 in H. destruct H as [G _].
    assert (O' := O). apply owns_VMap in O'. destruct O' as (cm & Fs & X' & _). rewrite X in X'. injection X' as ->.
    assert (E1 := get_ref_noslot st l _ (PKey k) s _ P eq_refl X I G). rewrite <- at_rref in E1.
    assert (E2 : read_ref (RProxy l [PKey k]) st = (Throw KeyError, st)).
    { unfold read_ref. apply bind_throw. cbn [resolve_throw]. apply bind_throw. cbn [get_path get_elem]. apply bind_throw.
      unfold get_key. rewrite (bind_load _ _ _ _ P), (bind_get_map _ _ _ _ X). cbn [slot_get] in G. rewrite G. reflexivity. }
    exists KeyError. unfold map_op. destruct op as [cx| |cx|].
    + destruct (NA cx eq_refl).
    + rewrite (bind_ok _ _ _ _ _ E1). apply bind_throw, E2.
    + rewrite (bind_ok _ _ _ _ _ E1). apply bind_throw, E2.
    + rewrite (bind_ok _ _ _ _ _ E1). apply bind_throw, E2.
Qed.
(** Removing an entry of a list always throws. *)
Lemma remove_list st l vs c F k acc : tree st l (VList vs) c F -> exists x, pointer_op [k] (RRef l) PRemove acc st = (Throw x, st).
Proof.
  intros T. destruct (elem_in (VList vs) k) as [e|] eqn:EI.
  - assert (P := tr_peek _ _ _ _ _ T). assert (O := tr_owns _ _ _ _ _ T). destruct c; try (destruct O; fail).
    cbn [pointer_op]. rewrite (bind_ok _ _ _ _ _ (exists_rref l st)), (bind_ok _ _ _ _ _ (type_rref _ _ _ P)). cbn [num_view].
    unfold elem_in in EI. cbn [elem_for] in EI. destruct (is_index k) as [i|] eqn:Ix; [|discriminate]. rewrite (index_not_dash _ _ Ix).
    exists UnexpectedTypeError. unfold list_op. apply bind_throw. rewrite at_rref. cbn [get_ref_elem]. unfold get_ref_key. rewrite (bind_load _ _ _ _ P). reflexivity.
  - eapply look_fails; eauto. discriminate.
Qed.
(** Adding where there is no container, or with an index that is none. *)
Lemma add_fails st l v c F k cx acc : tree st l v c F ->
  match v with VMap _ => False | VList _ => is_index k = None /\ k <> s2b "-" | _ => True end ->
  pointer_op [k] (RRef l) (PAdd cx) acc st = (Throw RuntimeError, st).
Proof.
  intros T H. assert (P := tr_peek _ _ _ _ _ T). assert (O := tr_owns _ _ _ _ _ T).
  cbn [pointer_op]. rewrite (bind_ok _ _ _ _ _ (exists_rref l st)), (bind_ok _ _ _ _ _ (type_rref _ _ _ P)).
  destruct v; try tauto; destruct c; try (destruct O; fail); cbn [num_view]; try reflexivity.
  destruct H as [-> N]. destruct (beqb k (s2b "-")) eqn:D; [apply beqb_eq in D; congruence|reflexivity].
Qed.
(** Adding past the end of a list. *)
Lemma add_beyond st l vs c F k i cx acc : tree st l (VList vs) c F -> is_index k = Some i -> N.of_nat (List.length vs) < i ->
  pointer_op [k] (RRef l) (PAdd cx) acc st = (UB, st).
Proof.
  intros T Ix H. assert (P := tr_peek _ _ _ _ _ T). assert (O := tr_owns _ _ _ _ _ T). destruct c; try (destruct O; fail).
  apply owns_VList in O. destruct O as (cs & Fs & X & _ & Ol). assert (Lc := owns_list_length _ _ _ _ Ol).
  cbn [pointer_op]. rewrite (bind_ok _ _ _ _ _ (exists_rref l st)), (bind_ok _ _ _ _ _ (type_rref _ _ _ P)). cbn [num_view].
  rewrite (index_not_dash _ _ Ix), Ix. unfold list_op.
  assert (C := contains_ref st l _ (PIdx (wrap32 i)) s _ P eq_refl X I). cbn [slot_get] in C. rewrite (bind_ok _ _ _ _ _ C).
  assert (Old : (if match nthN cs (wrap32 i) with Some _ => true | None => false end
                 then let* o := get (RRef l) (PIdx (wrap32 i)) in ret (Some o) else ret None) st = (Ok (nthN cs (wrap32 i)), st)).
  { destruct (nthN cs (wrap32 i)) as [c0|] eqn:Gk; [|reflexivity].
    rewrite (bind_ok _ _ _ _ _ (get_ref st l _ (PIdx (wrap32 i)) s _ c0 P eq_refl X Gk)). reflexivity. }
  rewrite (bind_ok _ _ _ _ _ Old). cbn [resolve_create]. unfold bind at 1. cbn [ret].
  rewrite (bind_ok _ _ _ s st). 2:{ unfold as_list. rewrite (bind_load _ _ _ _ P). reflexivity. }
  apply bind_ub. unfold list_insert. rewrite (bind_get_list _ _ _ _ X). unfold lsize. destruct (N.leb_spec i (N.of_nat (List.length cs))); [lia|reflexivity].
Qed.
(** A pointer that leads through something that is not there. *)
Lemma lost ks : forall st l v c F k op acc, tree st l v c F -> route v ks = None -> exists x, pointer_op (ks ++ [k]) (RRef l) op acc st = (Throw x, st).
Proof.
  induction ks as [|k0 ks IH]; intros st l v c F k op acc T R; [discriminate|]. cbn [route] in R.
  assert (P := tr_peek _ _ _ _ _ T). assert (O := tr_owns _ _ _ _ _ T).
  destruct (elem_for v k0) as [e|] eqn:EF.
  - destruct (vchild v e) as [w|] eqn:W.
    + destruct (route w ks) as [q|] eqn:R'; [discriminate|].
      destruct (descend_slot st l v c F e w T W) as (s & x & cw & Fw & B & X & G & InS & Ns & Tw & Inc & OG & Up & _).
      cbn [app]. erewrite (pointer_step st l v c k0 e s x cw); eauto.
      * destruct v; try discriminate; destruct c; try (destruct O; fail); reflexivity.
      * destruct ks; discriminate.
    + cbn [app pointer_op]. rewrite (bind_ok _ _ _ _ _ (exists_rref l st)), (bind_ok _ _ _ _ _ (type_rref _ _ _ P)).
      assert (Nx : exists k1 t, ks ++ [k] = k1 :: t) by (destruct ks as [|k1 ks]; cbn; eauto). destruct Nx as (k1 & t & ->).
      assert (Ex : at_elem (RRef l) e st = (Ok (RProxy l [e]), st) /\ exists_ref (RProxy l [e]) st = (Ok false, st)).
      { assert (E1 := get_elem_none st l v c F e P O W). split.
        - destruct (base c e) as [s|] eqn:B.
          + destruct (owns_slot _ _ _ _ e s O B) as (x & A & Fw & D & X & _ & K & _ & H & _). rewrite W in H. destruct H as [G _].
            rewrite at_rref. eapply get_ref_noslot; eauto.
            destruct v; try discriminate; destruct c; try (destruct O; fail); cbn [elem_for] in EF.
            * destruct (is_index k0); [|discriminate]. injection EF as <-. injection B as ->. apply owns_VList in O. destruct O as (cs & Fs & X' & _). rewrite X in X'. injection X' as ->. exact I.
            * injection EF as <-. injection B as ->. apply owns_VMap in O. destruct O as (cs & Fs & X' & _). rewrite X in X'. injection X' as ->. exact I.
          + destruct v; try discriminate; destruct c; try (destruct O; fail); cbn [elem_for] in EF.
            * destruct (is_index k0); [|discriminate]. injection EF as <-. discriminate.
            * injection EF as <-. discriminate.
        - unfold exists_ref. cbn [resolve_check]. rewrite (bind_ok _ _ _ None st); [reflexivity|].
          cbn [get_path]. rewrite (bind_ok _ _ _ _ _ E1). reflexivity. }
      destruct Ex as [E1 E2]. exists RuntimeError.
      destruct v; try discriminate; destruct c; try (destruct O; fail); cbn [num_view elem_for] in *.
      * destruct (is_index k0); [|discriminate]. injection EF as <-. rewrite (bind_ok _ _ _ _ _ E1). cbn [pointer_op]. rewrite (bind_ok _ _ _ _ _ E2). reflexivity.
      * injection EF as <-. rewrite (bind_ok _ _ _ _ _ E1). cbn [pointer_op]. rewrite (bind_ok _ _ _ _ _ E2). reflexivity.
  - cbn [app pointer_op]. rewrite (bind_ok _ _ _ _ _ (exists_rref l st)), (bind_ok _ _ _ _ _ (type_rref _ _ _ P)).
    assert (Nx : exists k1 t, ks ++ [k] = k1 :: t) by (destruct ks as [|k1 ks]; cbn; eauto). destruct Nx as (k1 & t & ->).
    exists RuntimeError. destruct v; try discriminate; destruct c; try (destruct O; fail); cbn [num_view elem_for] in *; try reflexivity.
    destruct (is_index k0); [discriminate|reflexivity].
Qed.
