(** Erasing in a tree, and merging one into another. *)
From Verif Require Import Base Float Value Blob Path Numeric Heap HeapProofs HeapSpec ValueOps HeapTree.
Open Scope N_scope.

Definition slot_del (x : storage) (e : pelem) : storage :=
  match x, e with StMap m, PKey k => StMap (mdel k m) | StList l, PIdx _ => StList (removelast l) | _, _ => x end.

(** The last element of a list, or an entry of a map, taken away. *)
Lemma owns_del h v c F e s w : owns h v c F -> base c e = Some s -> vchild v e = Some w -> ~ interior v e ->
  exists x A Fw B v', nth_error h s = Some x /\ F = s :: A ++ Fw ++ B /\ verase_elem v e = Some v' /\
  forall h', nth_error h' s = Some (slot_del x e) ->
    (forall t y, nth_error h t = Some y -> ~ container y -> nth_error h' t = Some y) ->
    (forall t, In t (A ++ B) -> nth_error h' t = nth_error h t) -> owns h' v' c (s :: A ++ B).
Proof.
  intros O Bs W NI. destruct c; try discriminate; destruct e as [k|i]; try discriminate; injection Bs as ->; destruct v; try (destruct O; fail).
  - apply owns_VList in O. destruct O as (cs & Fs & E & -> & O). cbn [vchild] in W. cbn [interior] in NI.
    assert (Li : (N.to_nat i < List.length l)%nat) by (apply nth_error_Some; congruence).
    assert (El : l = removelast l ++ [w]).
    { destruct l as [|z l]; [cbn in Li; lia|]. rewrite (app_removelast_last z) at 1 by discriminate. f_equal. f_equal.
      assert (Hn : nth_error (z :: l) (N.to_nat i) = Some (last (z :: l) z)).
      { replace (N.to_nat i) with (List.length (removelast (z :: l))) by (rewrite removelast_length; cbn [List.length] in *; lia).
        rewrite (app_removelast_last z) at 1 by discriminate. rewrite nth_error_app2, Nat.sub_diag by lia. reflexivity. }
      congruence. }
    rewrite El in O. apply owns_list_app_inv in O. destruct O as (cs1 & cs2 & Fs1 & Fs2 & -> & -> & L1 & O1 & O2).
    destruct cs2 as [|cw [|? ?]], Fs2 as [|Fw [|? ?]]; cbn [owns_list] in O2; try tauto. destruct O2 as [Ow _].
    exists (StList (cs1 ++ [cw])), (List.concat Fs1), Fw, [], (VList (removelast l)). split; [exact E|].
    split; [rewrite concat_app; cbn; rewrite !app_nil_r; reflexivity|]. split.
    { cbn [verase_elem]. destruct (N.ltb_spec (i + 1) (N.of_nat (List.length l))); [tauto|].
      destruct (N.ltb_spec i (N.of_nat (List.length l))); [reflexivity|lia]. }
    intros h' E' NC D. apply owns_VList. cbn [slot_del] in E'. rewrite removelast_last in E'. exists cs1, Fs1.
    split; [exact E'|]. split; [rewrite app_nil_r; reflexivity|]. eapply owns_list_frame'; eauto. intros; apply D. rewrite app_nil_r. auto.
  - apply owns_VMap in O. destruct O as (cm & Fs & E & -> & HS & HK & O). rename m into vm. cbn [vchild] in W.
    assert (HS' := msorted_keys _ _ HK HS).
    destruct (mset_split k vm HS) as (vm1 & vm2 & Lo & Hi & [Ev|[w0 Ev]]).
    { rewrite Ev, mget_below, mget_above in W by auto. discriminate. }
    assert (Hd : forall A (m1 m2 : list (bytes * A)) y, (forall k', In k' (mkeys m1) -> bcmp k' k = Lt) -> mdel k (m1 ++ (k, y) :: m2) = m1 ++ m2).
    { induction m1 as [|[k1 z1] m1 IH]; intros m2 y L; cbn; [rewrite beqb_refl; reflexivity|].
      destruct (beqb k k1) eqn:B. { apply beqb_eq in B. subst. specialize (L k1 (or_introl eq_refl)). rewrite bcmp_refl in L. discriminate. }
      f_equal. apply IH. intros; apply L; cbn; auto. }
    assert (HK0 := HK). rewrite Ev, map_app in HK, O. symmetry in HK. destruct (map_app_inv _ _ _ _ HK) as (cm1 & cm2' & Ec & K1 & K2).
    destruct cm2' as [|[k' cw] cm2]; [discriminate|]. cbn in K2. injection K2 as -> K2.
    rewrite Ec, map_app in O. apply owns_list_app_inv in O. destruct O as (c1 & c2 & Fs1 & Fs2 & Ecc & -> & L1 & O1 & O2).
    assert (Ecs : c1 = List.map snd cm1 /\ c2 = List.map snd ((k, cw) :: cm2)).
    { assert (H : List.length c1 = List.length (List.map snd cm1)).
      { rewrite L1, !map_length. rewrite <- (map_length fst cm1), K1, map_length. reflexivity. }
      clear -Ecc H. revert c1 Ecc H. generalize (List.map snd cm1). induction l; intros [|y c1] Ecc H; try discriminate; cbn in *; auto.
      injection Ecc as -> Ecc. destruct (IHl c1); auto. split; congruence. }
    destruct Ecs as [-> ->]. destruct Fs2 as [|Fw Fs2]; cbn [owns_list List.map] in O2; try tauto. destruct O2 as [Ow O2].
    assert (Lo' : forall k', In k' (mkeys cm1) -> bcmp k' k = Lt) by (unfold mkeys in *; rewrite K1; auto).
    exists (StMap cm), (List.concat Fs1), Fw, (List.concat Fs2), (VMap (mdel k vm)). split; [exact E|]. split; [rewrite concat_app; reflexivity|].
    split; [reflexivity|]. intros h' E' NC D. cbn [slot_del] in E'. apply owns_VMap. exists (mdel k cm), (Fs1 ++ Fs2).
    split; [exact E'|]. split; [rewrite concat_app; reflexivity|]. split; [apply msorted_mdel; auto|].
    rewrite Ev, Ec, !Hd by auto. rewrite !map_app. split; [congruence|].
    apply owns_list_app; eapply owns_list_frame'; eauto; intros; apply D, in_or_app; auto.
Qed.

Lemma put_storage_ok st s x y : nth_error (h_heap st) s = Some y -> exists st', put_storage s x st = (Ok tt, st') /\
  h_vars st' = h_vars st /\ hlen st' = hlen st /\
  forall t, nth_error (h_heap st') t = if Nat.eqb t s then Some x else nth_error (h_heap st) t.
Proof.
  intros E. unfold put_storage. rewrite E. eexists. split; [reflexivity|]. cbn. repeat split.
  - unfold hlen; cbn. apply length_lput.
  - intros t. rewrite nth_lput, E. reflexivity.
Qed.

(** A tree of which one container was modified. *)
Lemma tree_one st l v c F s st' v' F' G : tree st l v c F -> In s F -> owns (h_heap st') v' c F' -> NoDup F' ->
  (forall t, In t F' -> In t F \/ In t G \/ (hlen st <= t)%nat) -> outside l G -> h_vars st' = h_vars st -> hlen st' = hlen st ->
  (forall t, t <> s -> nth_error (h_heap st') t = nth_error (h_heap st) t) -> turns st l F G st' v' c F'.
Proof.
  intros [P O ND OL LS] I O' ND' In' OG V HL H.
  assert (Fr : forall t, ~ In t F -> nth_error (h_heap st') t = patch l c t (nth_error (h_heap st) t)).
  { intros t Nt. rewrite H by (intros ->; auto). symmetry. apply patch_same; auto. }
  assert (FL : forall t, ~ outside l [t] -> nth_error (h_heap st') t = patch l c t (nth_error (h_heap st) t)).
  { intros t Ht. apply Fr. exact (outside_not _ _ _ OL Ht). }
  assert (VV : h_vars st' = patchv l c (h_vars st)) by (rewrite V; symmetry; apply patchv_same, P).
  split; [split|]; auto.
  - eapply peek_patched; eauto.
  - assert (X : forall t, ~ outside l [t] -> ~ In t F').
    { intros t Ht J. destruct (In' _ J) as [J'|[J'|J']].
      - exact (outside_not _ _ _ OL Ht J').
      - exact (outside_not _ _ _ OG Ht J').
      - apply (peek_lt _ _ _ _ P) in Ht. lia. }
    destruct l; cbn in *; auto; apply X; cbn; tauto.
  - eapply lsorted_patched; eauto.
  - repeat split; auto. lia.
Qed.

(** A list no longer than a 32-bit size can say. *)
Definition short (v : value) : Prop := match v with VList l => N.of_nat (List.length l) < 2^32 | _ => True end.

Lemma turns_refl st l v c F : tree st l v c F -> turns st l F [] st v c F.
Proof.
  intros T. split; auto. repeat split; auto.
  - symmetry. apply patchv_same, T.
  - intros s _ _. symmetry. apply patch_same; apply T.
Qed.

Lemma erase_elem_tree st l v c F e : tree st l v c F -> elem_small e -> short v ->
  match verase_elem v e with
  | Some v' => exists st', erase_elem l e st = (Ok tt, st') /\ becomes st l F [] st' v'
  | None => erase_elem l e st = (Throw UnexpectedTypeError, st)
  end.
Proof.
  intros T S Sh. assert (P := tr_peek _ _ _ _ _ T). assert (O := tr_owns _ _ _ _ _ T).
  destruct v as [| | | | | |vs|vm|].
  1:{ destruct (tree_null _ _ _ _ T) as [-> ->]. replace (verase_elem VNull e) with (Some VNull) by (destruct e; reflexivity). exists st. split.
      - destruct e; cbn [erase_elem]; [unfold erase_key|unfold erase_index]; rewrite (bind_load _ _ _ _ P); reflexivity.
      - exists CNull, []. apply turns_refl, T. }
  all: try (destruct c; try (destruct O; fail); destruct e; cbn [erase_elem verase_elem]; [unfold erase_key|unfold erase_index];
            rewrite (bind_load _ _ _ _ P); reflexivity).
  - destruct c; try (destruct O; fail). destruct e as [k|i].
    { cbn [erase_elem verase_elem]; unfold erase_key. rewrite (bind_load _ _ _ _ P); reflexivity. }
    assert (O' := O). apply owns_VList in O'. destruct O' as (cs & Fs & X & EF & OL). assert (L := owns_list_length _ _ _ _ OL).
    assert (sF : In s F) by (rewrite EF; cbn; auto).
    cbn [short elem_small] in *. cbn [erase_elem verase_elem]. unfold erase_index. rewrite (bind_load _ _ _ _ P), (bind_get_list _ _ _ _ X).
    replace (wrap32 (i + 1)) with (i + 1) by (unfold wrap32; rewrite N.mod_small; lia).
    replace (wrap32 (lsize cs)) with (N.of_nat (List.length vs)) by (unfold wrap32, lsize; rewrite N.mod_small; lia).
    destruct (N.ltb_spec (i + 1) (N.of_nat (List.length vs))) as [HL|HL].
    + unfold list_at. rewrite (bind_ok _ _ _ (LIdx s i) st).
      2:{ rewrite (bind_get_list _ _ _ _ X). unfold lsize. destruct (N.ltb_spec i (N.of_nat (List.length cs))); [reflexivity|lia]. }
      unfold assign. destruct (put_elem_turns st l _ _ F (PIdx i) s VNull CNull [] T eq_refl S eq_refl (NoDup_nil _)) as (st' & v' & F' & E & Ev & Tu & _).
      { intros ? _ []. } { destruct l; cbn; auto. }
      cbn [put_elem] in E. unfold list_set_index in E. rewrite (bind_get_list _ _ _ _ X) in E. unfold lsize in E.
      destruct (N.ltb_spec i (N.of_nat (List.length cs))) as [H|H]; [|lia]. unfold bind at 1 in E. cbn [ret] in E.
      unfold list_at in E. rewrite (bind_ok _ _ _ (LIdx s i) st) in E.
      2:{ rewrite (bind_get_list _ _ _ _ X). unfold lsize. destruct (N.ltb_spec i (N.of_nat (List.length cs))); [reflexivity|lia]. }
      exists st'. split; [exact E|]. cbn [vset_elem] in Ev. injection Ev as <-. exists (CList s), F'. exact Tu.
    + destruct (N.ltb_spec i (N.of_nat (List.length vs))) as [HL2|HL2].
      2:{ exists st. split; auto. exists (CList s), F. apply turns_refl, T. }
      destruct (nth_error vs (N.to_nat i)) as [w|] eqn:W; [|apply nth_error_None in W; lia].
      destruct (owns_del _ _ _ F (PIdx i) s w O eq_refl W) as (x & A & Fw & B & v' & X' & EF' & Ev & R). { cbn. lia. }
      cbn [verase_elem] in Ev. destruct (N.ltb_spec (i + 1) (N.of_nat (List.length vs))); [lia|].
      destruct (N.ltb_spec i (N.of_nat (List.length vs))); [|lia]. injection Ev as <-.
      rewrite X in X'. injection X' as <-.
      destruct (put_storage_ok st s (StList (removelast cs)) _ X) as (st' & E & V & HLn & H').
      exists st'. split; [exact E|]. exists (CList s), (s :: A ++ B).
      assert (Hn : forall t, t <> s -> nth_error (h_heap st') t = nth_error (h_heap st) t).
      { intros t N. rewrite H'. destruct (Nat.eqb_spec t s); congruence. }
      assert (ND := tr_nodup _ _ _ _ _ T). rewrite EF' in ND. destruct (NoDup_mid _ _ _ _ ND) as (N1 & N2 & N3 & N4 & N5).
      eapply tree_one; eauto.
      * apply R.
        -- rewrite H', Nat.eqb_refl. reflexivity.
        -- intros t y Ey C. rewrite Hn; auto. intros ->. rewrite X in Ey. injection Ey as <-. apply C. exact I.
        -- intros t J. apply Hn. intros ->. auto.
      * constructor; auto.
      * intros t J. left. rewrite EF'. cbn in J |- *. rewrite !in_app_iff in *. tauto.
      * destruct l; cbn; auto.
  - destruct c; try (destruct O; fail). destruct e as [k|i].
    2:{ cbn [erase_elem verase_elem]; unfold erase_index. rewrite (bind_load _ _ _ _ P); reflexivity. }
    assert (O' := O). apply owns_VMap in O'. destruct O' as (cm & Fs & X & EF & HS & HK & OL).
    assert (sF : In s F) by (rewrite EF; cbn; auto).
    cbn [erase_elem verase_elem]. unfold erase_key. rewrite (bind_load _ _ _ _ P), (bind_get_map _ _ _ _ X).
    destruct (put_storage_ok st s (StMap (mdel k cm)) _ X) as (st' & E & V & HLn & H').
    exists st'. split; [exact E|].
    assert (Hn : forall t, t <> s -> nth_error (h_heap st') t = nth_error (h_heap st) t).
    { intros t N. rewrite H'. destruct (Nat.eqb_spec t s); congruence. }
    assert (NC : forall t y, nth_error (h_heap st) t = Some y -> ~ container y -> nth_error (h_heap st') t = Some y).
    { intros t y Ey C. rewrite Hn; auto. intros ->. rewrite X in Ey. injection Ey as <-. apply C. exact I. }
    destruct (mget k vm) as [w|] eqn:W.
    + destruct (owns_del _ _ _ F (PKey k) s w O eq_refl W) as (x & A & Fw & B & v' & X' & EF' & Ev & R). { cbn. auto. }
      cbn [verase_elem] in Ev. injection Ev as <-. rewrite X in X'. injection X' as <-.
      assert (ND := tr_nodup _ _ _ _ _ T). rewrite EF' in ND. destruct (NoDup_mid _ _ _ _ ND) as (N1 & N2 & N3 & N4 & N5).
      exists (CMap s), (s :: A ++ B). eapply tree_one; eauto.
      * apply R; auto.
        -- rewrite H', Nat.eqb_refl. reflexivity.
        -- intros t J. apply Hn. intros ->. auto.
      * constructor; auto.
      * intros t J. left. rewrite EF'. cbn in J |- *. rewrite !in_app_iff in *. tauto.
      * destruct l; cbn; auto.
    + assert (W' : ~ In k (mkeys vm)) by (apply mget_None_notin; auto).
      assert (W2 : ~ In k (mkeys cm)) by (unfold mkeys in *; rewrite <- HK; auto).
      rewrite (mdel_notin _ _ W'). rewrite (mdel_notin _ _ W2) in H'. exists (CMap s), F. eapply tree_one; eauto.
      * eapply owns_frame; [exact NC| |exact O]. intros t _. rewrite H'. destruct (Nat.eqb_spec t s); [subst; rewrite X|]; reflexivity.
      * apply T.
      * destruct l; cbn; auto.
Qed.

Lemma verase_elem_size v e v' : verase_elem v e = Some v' -> vempty v' <> None.
Proof. destruct e, v; try discriminate; cbn; intros E; injection E as <-; discriminate. Qed.
Lemma vset_elem_size v e x v' : vset_elem v e x = Some v' -> vempty v' <> None.
Proof. destruct e, v; try discriminate; cbn; intros E; injection E as <-; discriminate. Qed.
Lemma verase_two p : forall v rm, (exists v', verase v p rm = Ok v') \/ (exists x, verase v p rm = Throw x).
Proof.
  induction p as [|e p IH]; intros v rm; [left; exists v; reflexivity|]. destruct p as [|e2 p].
  - cbn. destruct (verase_elem v e); eauto.
  - rewrite verase_cons by discriminate. destruct (vchild v e) as [w|]; [|eauto]. destruct (IH w rm) as [[w' ->]|[x ->]]; cbn [rbind]; eauto.
    destruct (vset_elem v e w') as [v1|]; eauto. destruct rm; eauto. destruct (vempty w') as [[|]|]; eauto. destruct (verase_elem v1 e); eauto.
Qed.
Lemma erase_path_cons e q l rm st : q <> [] -> erase_path (e :: q) l rm st =
  (let* o := get_elem l e false in
   match o with
   | None => ret tt
   | Some l' =>
       erase_path q l' rm;;
       if rm then let* b := is_empty l' in if b then erase_elem l e else ret tt else ret tt
   end) st.
Proof. destruct q; [congruence|reflexivity]. Qed.
Lemma erase_scalar st l w c F q rm w' : tree st l w c F -> q <> [] -> verase w q rm = Ok w' -> vempty w' = None ->
  erase_path q l rm st = (Ok tt, st).
Proof.
  intros T N E EM. destruct q as [|e [|e2 q]]; [congruence| |].
  - cbn in E. destruct (verase_elem w e) eqn:G; [|discriminate]. injection E as ->. destruct (verase_elem_size _ _ _ G EM).
  - rewrite verase_cons in E by discriminate. rewrite erase_path_cons by discriminate. destruct (vchild w e) as [y|] eqn:W.
    + destruct (verase y (e2 :: q) rm); try discriminate. cbn [rbind] in E. destruct (vset_elem w e a) eqn:V; [|discriminate].
      assert (H := vset_elem_size _ _ _ _ V). destruct rm; [|congruence]. destruct (vempty a) as [[|]|]; try discriminate; [|congruence].
      destruct (verase_elem v e) eqn:G; [|discriminate]. injection E as ->. destruct (verase_elem_size _ _ _ G EM).
    + rewrite (bind_ok _ _ _ _ _ (get_elem_none _ _ _ _ _ _ (tr_peek _ _ _ _ _ T) (tr_owns _ _ _ _ _ T) W)). reflexivity.
Qed.
Lemma is_empty_tree st l v c F : tree st l v c F ->
  is_empty l st = (match vempty v with Some b => Ok b | None => Throw InvalidOperationError end, st).
Proof.
  intros [P O _ _ _]. unfold is_empty. rewrite (bind_load _ _ _ _ P).
  destruct v, c; cbn [owns] in O; try tauto; try reflexivity.
  - destruct O as [E _]. rewrite (bind_get_str _ _ _ _ E). reflexivity.
  - destruct O as (cs & Fs & E & _ & O). rewrite (bind_get_list _ _ _ _ E). destruct l0, cs, Fs; cbn in *; tauto || reflexivity.
  - destruct O as (cs & Fs & E & _ & _ & K & O). rewrite (bind_get_map _ _ _ _ E). destruct m, cs, Fs; cbn in *; try discriminate; tauto || reflexivity.
Qed.
Lemma short_set v e w w' v1 : vchild v e = Some w -> vset_elem v e w' = Some v1 -> short v -> short v1.
Proof.
  destruct e as [k|i], v; try discriminate; intros W E S; injection E as <-; cbn in *; auto.
  rewrite vput_within; auto. apply nth_error_Some. congruence.
Qed.
Definition all_short (v : value) : Prop := forall q w, vat v q = Some w -> short w.

Lemma outside_nil l : outside l []. Proof. destruct l; cbn; auto. Qed.
Lemma apart_nil F : apart F []. Proof. intros s _ []. Qed.

Lemma erase_path_tree p : forall st l v c F rm, tree st l v c F -> path_small p -> all_short v ->
  match verase v p rm with
  | Ok v' => exists st', erase_path p l rm st = (Ok tt, st') /\ becomes st l F [] st' v'
  | Throw x => erase_path p l rm st = (Throw x, st)
  | _ => False
  end.
Proof.
  induction p as [|e p IH]; intros st l v c F rm T S Sh.
  - exists st. split; auto. exists c, F. apply turns_refl, T.
  - inversion S as [|? ? S1 S2]; subst. destruct p as [|e2 p].
    + cbn [verase erase_path]. assert (H := erase_elem_tree st l v c F e T S1 (Sh [] v eq_refl)). destruct (verase_elem v e); exact H.
    + rewrite verase_cons, erase_path_cons by discriminate. destruct (vchild v e) as [w|] eqn:W.
      * destruct (descend st l v c F e w T W) as (l' & cw & Fw & Eg & Tw & Inc & OG' & Up).
        rewrite (bind_ok _ _ _ _ _ (Eg false)).
        assert (Shw : all_short w). { intros q y Y. apply (Sh (e :: q)). cbn [vat]. rewrite W. exact Y. }
        assert (Hs := erase_scalar st l' w cw Fw (e2 :: p) rm).
        specialize (IH st l' w cw Fw rm Tw S2 Shw). destruct (verase_two (e2 :: p) w rm) as [[w' Q]|[x Q]]; rewrite Q in *; cbn [rbind].
        -- destruct IH as (st1 & E1 & Bw). destruct (Up [] st1 w' (outside_nil _) (apart_nil _) Bw) as (v1 & V1 & Bv). rewrite V1.
           rewrite (bind_ok _ _ _ _ _ E1). destruct rm; [|exists st1; auto].
           assert (Bw' := Bw). destruct Bw' as (cw' & Fw' & Tw' & _).
           assert (EE := is_empty_tree _ _ _ _ _ Tw'). destruct (vempty w') as [[|]|] eqn:EM.
           ++ rewrite (bind_ok _ _ _ _ _ EE). destruct Bv as (c1 & F1 & Tu). assert (T1 := Tu). destruct T1 as (T1 & _).
              assert (H := erase_elem_tree st1 l v1 c1 F1 e T1 S1 (short_set _ _ _ _ _ W V1 (Sh [] v eq_refl))).
              destruct (verase_elem v1 e) as [v2|] eqn:G.
              ** destruct H as (st2 & E2 & c2 & F2 & Tu2). exists st2. split; auto. exists c2, F2. eapply turns_trans; eauto.
              ** destruct e; apply vset_elem_kind in V1; destruct V1 as [_ [z ->]]; discriminate.
           ++ rewrite (bind_ok _ _ _ _ _ EE). exists st1. auto.
           ++ assert (N : e2 :: p <> []) by discriminate. rewrite (Hs w' Tw N eq_refl EM) in E1. injection E1 as <-.
              apply (bind_throw _ _ _ _ _ EE).
        -- apply (bind_throw _ _ _ _ _ IH).
      * rewrite (bind_ok _ _ _ _ _ (get_elem_none _ _ _ _ _ _ (tr_peek _ _ _ _ _ T) (tr_owns _ _ _ _ _ T) W)).
        exists st. split; auto. exists c, F. apply turns_refl, T.
Qed.

(** ** Merging *)
Definition union (m o : list (bytes * value)) : list (bytes * value) :=
  fold_left (fun m kv => mset (fst kv) (snd kv) m) o m.
Lemma union_sorted o : forall m, msorted m -> msorted (union m o).
Proof. induction o as [|kv o IH]; intros m K; cbn; auto. apply IH, msorted_mset, K. Qed.
Lemma mget_union o : forall m k, msorted m -> msorted o ->
  mget k (union m o) = match mget k o with Some x => Some x | None => mget k m end.
Proof.
  induction o as [|[k0 x] o IH]; intros m k K Ko; [reflexivity|]. unfold union in *. cbn [fold_left fst snd] in *. cbn in Ko. destruct Ko as [K1 K2].
  rewrite IH by (auto using msorted_mset). cbn [mget]. rewrite mget_mset by auto. destruct (beqb k k0) eqn:B; auto.
  apply beqb_eq in B. subst. rewrite mget_above; auto.
Qed.

Lemma merge_keys_tree ol : forall vl Gs st l vm s F so om,
  tree st l (VMap vm) (CMap s) F -> nth_error (h_heap st) so = Some (StMap om) -> ~ In so F -> ~ In so (List.concat Gs) -> outside l [so] ->
  (forall k c, In (k, c) ol -> mget k om = Some c) -> List.map fst vl = List.map fst ol ->
  owns_list (h_heap st) (List.map snd vl) (List.map snd ol) Gs ->
  apart F (List.concat Gs) -> NoDup (List.concat Gs) -> outside l (List.concat Gs) ->
  exists st' F', merge_keys l so (List.map fst ol) st = (Ok tt, st') /\
    owns (h_heap st') (VMap (union vm vl)) (CMap s) F' /\ NoDup F' /\ (forall t, In t F' -> In t F \/ In t (List.concat Gs)) /\
    h_vars st' = h_vars st /\ hlen st' = hlen st /\ forall t, t <> s -> nth_error (h_heap st') t = nth_error (h_heap st) t.
Proof.
  induction ol as [|[k c] ol IH]; intros vl Gs st l vm s F so om T Eso Nso NsG Oso Hom HK HO AG NG OG;
    destruct vl as [|[k' x] vl]; try discriminate.
  - exists st, F. cbn. repeat split; auto; apply T.
  - cbn [List.map fst snd] in *. injection HK as -> HK. destruct Gs as [|G Gs]; [destruct HO|]. destruct HO as [Ox HO].
    cbn [List.concat] in *. apply nodup_app in NG. destruct NG as (NG1 & NG2 & NG3).
    assert (AG1 : apart F G) by (intros t I J; apply (AG t); auto; apply in_or_app; auto).
    assert (AG2 : apart F (List.concat Gs)) by (intros t I J; apply (AG t); auto; apply in_or_app; auto).
    assert (OG1 : outside l G) by (eapply outside_incl; [exact OG|intros; apply in_or_app; auto]).
    assert (OG2 : outside l (List.concat Gs)) by (eapply outside_incl; [exact OG|intros; apply in_or_app; auto]).
    destruct (put_elem_turns st l _ _ F (PKey k) s x c G T eq_refl I Ox NG1 AG1 OG1) as (st1 & v1 & F1 & E1 & V1 & Tu & HL1 & H1).
    cbn [vset_elem] in V1. injection V1 as <-. assert (T1 := Tu). destruct T1 as (T1 & In1 & Va1 & N1 & L1).
    assert (sF : In s F).
    { assert (O := tr_owns _ _ _ _ _ T). apply owns_VMap in O. destruct O as (cm & Fs & _ & -> & _). cbn; auto. }
    assert (sso : so <> s) by (intros ->; auto).
    destruct (IH vl Gs st1 l (mset k x vm) s F1 so om T1) as (st' & F' & E & O' & ND' & In' & V' & HL' & H').
    + rewrite H1; auto.
    + intros J. destruct (In1 _ J) as [J'|[J'|J']]; auto.
      * apply NsG, in_or_app. auto.
      * unfold hlen in J'. assert ((so < List.length (h_heap st))%nat) by (apply nth_error_Some; congruence). lia.
    + intros J. apply NsG, in_or_app. auto.
    + exact Oso.
    + intros k1 c1 J. apply Hom. cbn; auto.
    + exact HK.
    + eapply owns_list_frame'; [| |exact HO].
      * intros t y Ey C. rewrite H1; auto. intros ->. destruct (owns_In _ _ _ _ _ (tr_owns _ _ _ _ _ T) sF) as (y' & Ey' & Cy). congruence.
      * intros t J. apply H1. intros ->. apply (AG2 s); auto.
    + intros t J J'. destruct (In1 _ J) as [K|[K|K]].
      * apply (AG2 t); auto.
      * apply (NG3 t); auto.
      * destruct (owns_list_In _ _ _ _ _ HO J') as (y & cy & fy & _ & Oy & Iy). assert (Hlt := owns_lt _ _ _ _ _ Oy Iy). unfold hlen in K. lia.
    + exact NG2.
    + exact OG2.
    + exists st', F'. split.
      * cbn [merge_keys]. assert (P : peek st (LKey so k) = Some c) by (cbn; rewrite Eso; apply Hom; cbn; auto).
        rewrite (bind_load _ _ _ _ P). rewrite (bind_ok _ _ _ tt st1); [exact E|].
        change (set_elem l (PKey k) c st = (Ok tt, st1)). rewrite (set_elem_base _ _ _ _ _ s (tr_peek _ _ _ _ _ T)); auto.
      * split; [exact O'|]. split; auto. split; [|repeat split; try congruence].
        -- intros t J. rewrite in_app_iff. destruct (In' _ J) as [J'|J']; auto. destruct (In1 _ J') as [K|[K|K]]; auto.
           destruct T1 as [_ O1 _ _ _]. assert (Hlt := owns_lt _ _ _ _ _ O1 J'). unfold hlen in *. lia.
        -- rewrite V', Va1. apply patchv_same, T.
        -- intros t N. rewrite H', H1; auto.
Qed.

Lemma key_after_tail k ks : (forall k', In k' ks -> bcmp k k' = Lt) -> filter (key_after k) (k :: ks) = ks.
Proof.
  intros H. cbn. unfold key_after at 1. rewrite bcmp_refl. induction ks as [|k1 ks IH]; cbn; auto.
  unfold key_after at 1. rewrite (H k1 (or_introl eq_refl)). f_equal. apply IH. intros; apply H; cbn; auto.
Qed.
Lemma owns_map_reads h om so G : owns h (VMap om) (CMap so) (so :: G) -> exists cm Gs,
  nth_error h so = Some (StMap cm) /\ G = List.concat Gs /\ msorted om /\ msorted cm /\ List.map fst om = List.map fst cm /\
  owns_list h (List.map snd om) (List.map snd cm) Gs.
Proof.
  intros O. apply owns_VMap in O. destruct O as (cm & Gs & E & EG & HS & HK & O). injection EG as ->. exists cm, Gs.
  repeat split; auto. eapply msorted_keys; eauto.
Qed.

(** Merge on trees: the union, with the right-hand side taking precedence, and the right-hand side
    as it was. *)
Lemma merge_tree st l v c F om so G : tree st l v c F -> owns (h_heap st) (VMap om) (CMap so) (so :: G) ->
  NoDup (so :: G) -> apart F (so :: G) -> outside l (so :: G) ->
  match om, v with
  | [], _ => merge (RRef l) (CMap so) st = (Ok tt, st)
  | _, VNull => exists st', merge (RRef l) (CMap so) st = (Ok tt, st') /\ becomes st l F G st' (VMap (union [] om)) /\
                  owns (h_heap st') (VMap om) (CMap so) (so :: G)
  | _, VMap vm => exists st', merge (RRef l) (CMap so) st = (Ok tt, st') /\ becomes st l F G st' (VMap (union vm om)) /\
                    owns (h_heap st') (VMap om) (CMap so) (so :: G)
  | _, _ => merge (RRef l) (CMap so) st = (Throw UnexpectedTypeError, st)
  end.
Proof.
  intros T O ND AG OG. destruct (owns_map_reads _ _ _ _ O) as (cm & Gs & Eso & EG & HS & HS' & HK & OL).
  unfold merge. rewrite (bind_get_map _ _ _ _ Eso).
  destruct om as [|[k x] om].
  { destruct cm; [reflexivity|discriminate]. }
  destruct cm as [|[k' c0] cm]; [discriminate|]. cbn [List.map fst] in HK. injection HK as <- HK.
  cbn [mkeys List.map fst].
  assert (P : forall st1, nth_error (h_heap st1) so = Some (StMap ((k, c0) :: cm)) -> peek st1 (LKey so k) = Some c0).
  { intros st1 E1. cbn [peek]. rewrite E1. apply mget_here. }
  rewrite (bind_load _ _ _ _ (P st Eso)). cbn [resolve_create].
  apply NoDup_cons_iff in ND. destruct ND as [NsG NG].
  assert (OG1 : outside l [so]) by (eapply outside_incl; [exact OG|intros t [->|[]]; cbn; auto]).
  assert (OG2 : outside l G) by (eapply outside_incl; [exact OG|cbn; auto]).
  assert (Kc : forall k1 c1, In (k1, c1) ((k, c0) :: cm) -> mget k1 ((k, c0) :: cm) = Some c1) by (intros; apply In_mget; auto).
  (* the whole loop from a map *)
  assert (Loop : forall st1 vm s F1, tree st1 l (VMap vm) (CMap s) F1 -> nth_error (h_heap st1) so = Some (StMap ((k, c0) :: cm)) ->
    owns_list (h_heap st1) (List.map snd ((k, x) :: om)) (List.map snd ((k, c0) :: cm)) Gs ->
    ~ In so F1 -> apart F1 G -> exists st' F',
    (set_key l k c0;; (let* m' := get_map so in merge_keys l so (filter (key_after k) (mkeys m')))) st1 = (Ok tt, st') /\
    turns st1 l F1 G st' (VMap (union vm ((k, x) :: om))) (CMap s) F' /\
    forall t, t <> s -> nth_error (h_heap st') t = nth_error (h_heap st1) t).
  { intros st1 vm s F1 T1 E1 OL1 NF1 AG1.
    assert (sF : In s F1).
    { assert (O2 := tr_owns _ _ _ _ _ T1). apply owns_VMap in O2. destruct O2 as (? & ? & _ & -> & _). cbn; auto. }
    destruct (merge_keys_tree ((k, c0) :: cm) ((k, x) :: om) Gs st1 l vm s F1 so ((k, c0) :: cm)) as (st' & F' & E & O' & ND' & In' & V' & HL' & H'); auto.
    - rewrite <- EG. auto.
    - cbn. congruence.
    - rewrite <- EG. auto.
    - rewrite <- EG. auto.
    - rewrite <- EG. auto.
    - exists st', F'. split; [|split].
      + cbn [merge_keys List.map fst] in E. rewrite (bind_load _ _ _ _ (P _ E1)) in E.
        assert (O2 := tr_owns _ _ _ _ _ T1). apply owns_VMap in O2. destruct O2 as (cm2 & _ & X2 & _).
        destruct (map_set_key_ok st1 s cm2 k c0 X2) as (st2 & E2 & V2 & HL2 & H2).
        assert (S2 : set_key l k c0 st1 = (Ok tt, st2)).
        { unfold set_key. rewrite (bind_load _ _ _ _ (tr_peek _ _ _ _ _ T1)). exact E2. }
        rewrite (bind_ok _ _ _ _ _ S2) in E. rewrite (bind_ok _ _ _ _ _ S2).
        assert (E3 : nth_error (h_heap st2) so = Some (StMap ((k, c0) :: cm))).
        { rewrite H2. destruct (Nat.eqb_spec so s); [subst; tauto|exact E1]. }
        rewrite (bind_get_map _ _ _ _ E3). cbn [mkeys List.map fst]. rewrite key_after_tail; [exact E|]. apply HS'.
      + eapply tree_one; eauto. intros t J. rewrite EG. destruct (In' _ J); auto.
      + exact H'. }
  destruct v as [| | | | | |vs|vm|].
  - destruct (tree_null _ _ _ _ T) as [-> ->]. destruct (materialise st l (PKey k) T) as (st1 & n & E1 & T1 & X1).
    assert (Hb : becomes st l [] [] st1 (VMap [])) by (exists (CMap n), [n]; exact T1).
    assert (Tt := T1). destruct Tt as (Tr1 & I1 & V1 & N1 & L1).
    assert (Hso : (so < hlen st)%nat) by (unfold hlen; apply nth_error_Some; congruence).
    assert (Hn : (hlen st <= n)%nat) by (destruct (I1 n (or_introl eq_refl)) as [[]|[[]|]]; auto).
    assert (HG : forall t, In t G -> (t < hlen st)%nat) by (intros t J; unfold hlen; eapply (owns_lt _ _ _ _ _ O); cbn; auto).
    assert (NC := noncontainer_kept _ _ _ _ _ _ _ _ T Hb).
    assert (KG : forall t, In t (so :: G) -> nth_error (h_heap st1) t = nth_error (h_heap st) t).
    { intros t J. rewrite N1; [exact (patch_out _ _ _ _ _ OG J)| |intros []]. destruct J as [<-|J]; auto. }
    destruct (Loop st1 [] n [n] Tr1) as (st' & F' & E & Tu & H').
    + rewrite KG; cbn; auto.
    + eapply owns_list_frame'; [exact NC| |exact OL]. intros t J. apply KG. rewrite EG. cbn; auto.
    + intros [J|[]]. lia.
    + intros t [<-|[]] J. specialize (HG _ J). lia.
    + exists st'. split; [|split].
      * change ((set_key l k c0;; (let* m' := get_map so in merge_keys l so (filter (key_after k) (mkeys m')))) st = (Ok tt, st')).
        rewrite <- E.
        assert (S2 : set_key l k c0 st = set_key l k c0 st1).
        { change (set_elem l (PKey k) c0 st = set_elem l (PKey k) c0 st1).
          rewrite (set_elem_null_two _ _ _ _ _ _ (tr_peek _ _ _ _ _ T) E1), (set_elem_base st1 l (PKey k) c0 (CMap n) n (tr_peek _ _ _ _ _ Tr1) eq_refl). reflexivity. }
        unfold bind at 1. rewrite S2. reflexivity.
      * exists (CMap n), F'. eapply turns_trans; eauto.
      * eapply owns_frame; [| |exact O].
        -- intros t y Ey C. specialize (NC _ _ Ey C). rewrite H'; auto. intros ->. rewrite X1 in NC. injection NC as <-. apply C. exact I.
        -- intros t J. rewrite H'; auto. intros ->. destruct J as [<-|J]; [lia|]. specialize (HG _ J). lia.
  - change ((set_key l k c0;; (let* m' := get_map so in merge_keys l so (filter (key_after k) (mkeys m')))) st = (Throw UnexpectedTypeError, st)).
    apply bind_throw. unfold set_key. rewrite (bind_load _ _ _ _ (tr_peek _ _ _ _ _ T)). assert (OT := tr_owns _ _ _ _ _ T). destruct c; try (destruct OT; fail). reflexivity.
  - change ((set_key l k c0;; (let* m' := get_map so in merge_keys l so (filter (key_after k) (mkeys m')))) st = (Throw UnexpectedTypeError, st)).
    apply bind_throw. unfold set_key. rewrite (bind_load _ _ _ _ (tr_peek _ _ _ _ _ T)). assert (OT := tr_owns _ _ _ _ _ T). destruct c; try (destruct OT; fail). reflexivity.
  - change ((set_key l k c0;; (let* m' := get_map so in merge_keys l so (filter (key_after k) (mkeys m')))) st = (Throw UnexpectedTypeError, st)).
    apply bind_throw. unfold set_key. rewrite (bind_load _ _ _ _ (tr_peek _ _ _ _ _ T)). assert (OT := tr_owns _ _ _ _ _ T). destruct c; try (destruct OT; fail). reflexivity.
  - change ((set_key l k c0;; (let* m' := get_map so in merge_keys l so (filter (key_after k) (mkeys m')))) st = (Throw UnexpectedTypeError, st)).
    apply bind_throw. unfold set_key. rewrite (bind_load _ _ _ _ (tr_peek _ _ _ _ _ T)). assert (OT := tr_owns _ _ _ _ _ T). destruct c; try (destruct OT; fail). reflexivity.
  - change ((set_key l k c0;; (let* m' := get_map so in merge_keys l so (filter (key_after k) (mkeys m')))) st = (Throw UnexpectedTypeError, st)).
    apply bind_throw. unfold set_key. rewrite (bind_load _ _ _ _ (tr_peek _ _ _ _ _ T)). assert (OT := tr_owns _ _ _ _ _ T). destruct c; try (destruct OT; fail). reflexivity.
  - change ((set_key l k c0;; (let* m' := get_map so in merge_keys l so (filter (key_after k) (mkeys m')))) st = (Throw UnexpectedTypeError, st)).
    apply bind_throw. unfold set_key. rewrite (bind_load _ _ _ _ (tr_peek _ _ _ _ _ T)). assert (OT := tr_owns _ _ _ _ _ T). destruct c; try (destruct OT; fail). reflexivity.
  - assert (OT := tr_owns _ _ _ _ _ T). destruct c; try (destruct OT; fail). rename s into n.
    assert (sF : In n F).
    { apply owns_VMap in OT. destruct OT as (? & ? & _ & -> & _). cbn; auto. }
    destruct (Loop st vm n F T Eso OL) as (st' & F' & E & Tu & H').
    + intros J. apply (AG so); cbn; auto.
    + intros t J J'. apply (AG t); cbn; auto.
    + exists st'. split; [exact E|split].
      * exists (CMap n), F'. exact Tu.
      * eapply owns_frame; [| |exact O].
        -- intros t y Ey C. rewrite H'; auto. intros ->. destruct (owns_In _ _ _ _ _ OT sF) as (z & Ez & Cz). congruence.
        -- intros t J. apply H'. intros ->. apply (AG n); auto.
  - change ((set_key l k c0;; (let* m' := get_map so in merge_keys l so (filter (key_after k) (mkeys m')))) st = (Throw UnexpectedTypeError, st)).
    apply bind_throw. unfold set_key. rewrite (bind_load _ _ _ _ (tr_peek _ _ _ _ _ T)). assert (OT := tr_owns _ _ _ _ _ T). destruct c; try (destruct OT; fail). reflexivity.
Qed.
