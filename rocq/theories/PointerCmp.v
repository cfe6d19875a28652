(** Comparing and copying documents that are trees. *)
From Verif Require Import Base CNum Float Value Blob Path Numeric Convert Emit Uri Heap HeapProofs HeapSpec SharingProofs ValueOps HeapTree
  HeapErase HeapTreeFacts Pointer PointerWalk PointerOps.
Open Scope N_scope.

(** No blob anywhere. *)
Fixpoint noblob (v : value) : Prop :=
  match v with
  | VBlob _ => False
  | VList l => (fix go l := match l with [] => True | x :: t => noblob x /\ go t end) l
  | VMap m => (fix go m := match m with [] => True | kv :: t => noblob (snd kv) /\ go t end) m
  | _ => True
  end.
Fixpoint noblobs (l : list value) : Prop := match l with [] => True | x :: t => noblob x /\ noblobs t end.
Lemma noblob_VList l : noblob (VList l) <-> noblobs l.
Proof. split; exact (fun H => H). Qed.
Lemma noblob_VMap m : noblob (VMap m) <-> noblobs (List.map snd m).
Proof. cbn. induction m; cbn; tauto. Qed.
Lemma noblobs_In l v : noblobs l -> In v l -> noblob v.
Proof. induction l; cbn; [tauto|]. intros [A B] [<-|J]; auto. Qed.

(** ** Comparing *)
Lemma vdepth_pos v : (1 <= vdepth v)%nat. Proof. destruct v; cbn; lia. Qed.
Lemma hcompare_owns h v : forall c F w d G fuel st, h_heap st = h -> owns h v c F -> owns h w d G -> noblob v -> (vdepth v <= fuel)%nat ->
  hcompare fuel c d st = (vcompare v w, st).
Proof.
  induction v as [|b|z|n|x|b|vs IH|vm IH|b] using value_ind'; intros c F w d G fuel st Eh O1 O2 NB D;
    (destruct fuel as [|f]; [cbn in D; lia|]).
  - destruct c; try (exfalso; exact O1). destruct w; destruct d; try (exfalso; exact O2); cbn in O2; try destruct O2 as [-> _]; reflexivity.
  - destruct c; try (exfalso; exact O1). destruct O1 as [-> _].
    destruct w; destruct d; try (exfalso; exact O2); cbn in O2; try destruct O2 as [-> _]; reflexivity.
  - destruct c; try (exfalso; exact O1). destruct O1 as [-> _].
    destruct w; destruct d; try (exfalso; exact O2); cbn in O2; try destruct O2 as [-> _]; reflexivity.
  - destruct c; try (exfalso; exact O1). destruct O1 as [-> _].
    destruct w; destruct d; try (exfalso; exact O2); cbn in O2; try destruct O2 as [-> _]; reflexivity.
  - destruct c; try (exfalso; exact O1). destruct O1 as [-> _].
    destruct w; destruct d; try (exfalso; exact O2); cbn in O2; try destruct O2 as [-> _]; reflexivity.
  - destruct c; try (exfalso; exact O1). destruct O1 as [E1 _]. rewrite <- Eh in *.
    destruct w; destruct d; try (exfalso; exact O2); try reflexivity. destruct O2 as [E2 _].
    cbn [hcompare]. rewrite (bind_get_str _ _ _ _ E1), (bind_get_str _ _ _ _ E2). reflexivity.
  - destruct c; try (exfalso; exact O1). rewrite <- Eh in *.
    destruct w as [| | | | | |ws| |]; destruct d; try (exfalso; exact O2); try reflexivity.
    apply owns_VList in O1. destruct O1 as (cs & Fs & E1 & _ & O1). apply owns_VList in O2. destruct O2 as (ds & Gs & E2 & _ & O2).
    cbn [hcompare]. rewrite (bind_get_list _ _ _ _ E1), (bind_get_list _ _ _ _ E2).
    rewrite (owns_list_length _ _ _ _ O1), (owns_list_length _ _ _ _ O2). cbn [vcompare].
    destruct (List.length vs =? List.length ws)%nat; [|reflexivity].
    apply noblob_VList in NB. rewrite vdepth_VList in D. assert (D' : (vdepths vs <= f)%nat) by lia. clear E1 E2 D Eh.
    set (go := fix go (l r : list cell) : M bool := match l, r with x :: l', y :: r' => let* c := hcompare f x y in if (c =? 0)%Z then go l' r' else ret false | _, _ => ret true end).
    set (vgo := fix vgo (l r : list value) : res bool := match l, r with x :: l', y :: r' => do c <- vcompare x y; if (c =? 0)%Z then vgo l' r' else Ok false | _, _ => Ok true end).
    assert (H : forall cs Fs ws ds Gs, owns_list (h_heap st) vs cs Fs -> owns_list (h_heap st) ws ds Gs -> go cs ds st = (vgo vs ws, st)).
    { clear O1 O2 cs Fs ws ds Gs. induction IH as [|v vs Hv Hvs IHl]; intros [|c cs] [|f1 Fs] [|w ws] [|d ds] [|g1 Gs] O1 O2; cbn in O1, O2; try tauto; try reflexivity.
      destruct O1 as [A1 B1], O2 as [A2 B2], NB as [N1 N2]. cbn [vdepths] in D'. cbn [go vgo].
      assert (Hc := Hv c f1 w d g1 f st eq_refl A1 A2 N1 ltac:(lia)). unfold bind. rewrite Hc.
      destruct (vcompare v w) as [z| | | |]; cbn [rbind]; try reflexivity. destruct (z =? 0)%Z; [|reflexivity]. apply (IHl N2 ltac:(lia)) with (Fs := Fs) (Gs := Gs); auto. }
    unfold bind. rewrite (H _ _ _ _ _ O1 O2). fold vgo. destruct (vgo vs ws) as [[]| | | |]; reflexivity.
  - destruct c; try (exfalso; exact O1). rewrite <- Eh in *.
    destruct w as [| | | | | | |wm|]; destruct d; try (exfalso; exact O2); try reflexivity.
    apply owns_VMap in O1. destruct O1 as (cs & Fs & E1 & _ & _ & K1 & O1). apply owns_VMap in O2. destruct O2 as (ds & Gs & E2 & _ & _ & K2 & O2).
    cbn [hcompare]. rewrite (bind_get_map _ _ _ _ E1), (bind_get_map _ _ _ _ E2).
    assert (L1 : List.length cs = List.length vm) by (rewrite <- (map_length fst cs), <- K1, map_length; auto).
    assert (L2 : List.length ds = List.length wm) by (rewrite <- (map_length fst ds), <- K2, map_length; auto).
    rewrite L1, L2. cbn [vcompare]. destruct (List.length vm =? List.length wm)%nat; [|reflexivity].
    apply noblob_VMap in NB. rewrite vdepth_VMap in D. assert (D' : (vdepths (List.map snd vm) <= f)%nat) by lia. clear E1 E2 D Eh L1 L2.
    set (go := fix go (m r : list (bytes * cell)) : M bool := match m, r with (k, x) :: m', (k', y) :: r' =>
                  if beqb k k' then let* c := hcompare f x y in if (c =? 0)%Z then go m' r' else ret false
                  else ret false | _, _ => ret true end).
    set (vgo := fix vgo (m r : list (bytes * value)) : res bool := match m, r with (k, x) :: m', (k', y) :: r' =>
                  if beqb k k' then do c <- vcompare x y; if (c =? 0)%Z then vgo m' r' else Ok false
                  else Ok false | _, _ => Ok true end).
    assert (H : forall cs Fs wm ds Gs, List.map fst vm = List.map fst cs -> List.map fst wm = List.map fst ds ->
       owns_list (h_heap st) (List.map snd vm) (List.map snd cs) Fs -> owns_list (h_heap st) (List.map snd wm) (List.map snd ds) Gs -> go cs ds st = (vgo vm wm, st)).
    { clear O1 O2 K1 K2 cs Fs wm ds Gs. induction IH as [|[k v] vm Hv Hvs IHl]; intros [|[kc c] cs] Fs [|[kw w] ws] [|[kd d] ds] Gs K1 K2 O1 O2;
        cbn in K1, K2; try discriminate; try reflexivity.
      destruct Fs as [|f1 Fs], Gs as [|g1 Gs]; cbn in O1, O2; try tauto.
      injection K1 as <- K1. injection K2 as <- K2. destruct O1 as [A1 B1], O2 as [A2 B2], NB as [N1 N2]. cbn [vdepths List.map snd] in D', Hv. cbn [go vgo].
      destruct (beqb k kw); [|reflexivity].
      assert (Hc := Hv c f1 w d g1 f st eq_refl A1 A2 N1 ltac:(lia)). unfold bind. rewrite Hc.
      destruct (vcompare v w) as [z| | | |]; cbn [rbind]; try reflexivity. destruct (z =? 0)%Z; [|reflexivity]. apply (IHl N2 ltac:(lia)) with (Fs := Fs) (Gs := Gs); auto. }
    unfold bind. rewrite (H _ _ _ _ _ K1 K2 O1 O2). fold vgo. destruct (vgo vm wm) as [[]| | | |]; reflexivity.
  - destruct NB.
Qed.

(** A tree is no deeper than it has containers, so the fuel of [compare] is enough. *)
Lemma depth_size h v : forall c F, owns h v c F -> (vdepth v <= S (List.length F))%nat.
Proof.
  induction v as [|b|z|n|x|b|vs IH|vm IH|b] using value_ind'; intros c F O; try (cbn [vdepth]; lia).
  - destruct c; try (exfalso; exact O). apply owns_VList in O. destruct O as (cs & Fs & _ & -> & O). rewrite vdepth_VList. cbn [List.length].
    assert (vdepths vs <= S (List.length (List.concat Fs)))%nat; [|lia].
    revert cs Fs O. induction IH as [|v vs Hv Hvs IHl]; intros [|c cs] [|f1 Fs] O; cbn in O; try tauto; cbn [vdepths]; [lia|].
    destruct O as [A B]. specialize (Hv _ _ A). specialize (IHl _ _ B). cbn [List.concat]. rewrite app_length. lia.
  - destruct c; try (exfalso; exact O). apply owns_VMap in O. destruct O as (cs & Fs & _ & -> & _ & _ & O). rewrite vdepth_VMap. cbn [List.length].
    assert (vdepths (List.map snd vm) <= S (List.length (List.concat Fs)))%nat; [|lia].
    revert O. generalize (List.map snd cs). intros l O. revert l Fs O. induction IH as [|v vs Hv Hvs IHl]; intros [|c l] [|f1 Fs] O; cbn in O; try tauto; cbn [vdepths List.map]; [lia|].
    destruct O as [A B]. specialize (Hv _ _ A). specialize (IHl _ _ B). cbn [List.concat]. rewrite app_length. lia.
Qed.
Lemma owns_small h v c F : owns h v c F -> NoDup F -> (List.length F <= List.length h)%nat.
Proof.
  intros O N. rewrite <- (seq_length (List.length h) 0). apply NoDup_incl_length; auto. intros s J. apply in_seq.
  assert (H := owns_lt _ _ _ _ _ O J). lia.
Qed.
Lemma compare_owns st v c F w d G : owns (h_heap st) v c F -> NoDup F -> owns (h_heap st) w d G -> noblob v ->
  compare c d st = (vcompare v w, st).
Proof.
  intros O1 N O2 B. unfold compare. eapply hcompare_owns; eauto.
  assert (H1 := depth_size _ _ _ _ O1). assert (H2 := owns_small _ _ _ _ O1 N). nia.
Qed.

(** ** Copying *)
Lemma copy_plant v : forall c F fuel st, owns (h_heap st) v c F -> noblob v -> (vdepth v <= fuel)%nat -> copy fuel c st = plant v st.
Proof.
  induction v as [|b|z|n|x|b|vs IH|vm IH|b] using value_ind'; intros c F fuel st O NB D;
    (destruct fuel as [|f]; [cbn in D; lia|]).
  1-5: destruct c; try (exfalso; exact O); cbn in O; try destruct O as [-> _]; reflexivity.
  - destruct c; try (exfalso; exact O). destruct O as [E _]. cbn [copy]. rewrite (bind_get_str _ _ _ _ E). reflexivity.
  - destruct c; try (exfalso; exact O). apply owns_VList in O. destruct O as (cs & Fs & E & _ & O).
    rewrite plant_VList. cbn [copy]. rewrite (bind_get_list _ _ _ _ E). apply noblob_VList in NB. rewrite vdepth_VList in D.
    assert (D' : (vdepths vs <= f)%nat) by lia.
    assert (H : map_m (copy f) cs st = plant_list vs st).
    { clear E D. revert cs Fs st O. induction IH as [|v vs Hv Hvs IHl]; intros [|c cs] [|f1 Fs] st O; cbn in O; try tauto; try reflexivity.
      destruct O as [A B], NB as [N1 N2]. cbn [vdepths] in D'. cbn [map_m plant_list]. unfold bind at 1 3.
      rewrite (Hv c f1 f st A N1 ltac:(lia)). destruct (plant v st) as [[c'| | | |] st1] eqn:E1; auto. unfold bind.
      rewrite (IHl N2 ltac:(lia) cs Fs st1); [reflexivity|]. assert (V : vsorted v) by (eapply owns_sorted; eauto).
      destruct (plant_ok v V st) as (c1 & st2 & F2 & E2 & X & _). rewrite E1 in E2. injection E2 as <- <-.
      eapply extends_owns_list; eauto. }
    unfold bind at 1 3. rewrite H. reflexivity.
  - destruct c; try (exfalso; exact O). apply owns_VMap in O. destruct O as (cs & Fs & E & _ & _ & K & O).
    rewrite plant_VMap. cbn [copy]. rewrite (bind_get_map _ _ _ _ E). apply noblob_VMap in NB. rewrite vdepth_VMap in D.
    assert (D' : (vdepths (List.map snd vm) <= f)%nat) by lia.
    assert (H : map_m (fun kv : bytes * cell => let* x := copy f (snd kv) in ret (fst kv, x)) cs st = plant_map vm st).
    { clear E D. revert cs Fs st K O. induction IH as [|[k v] vm Hv Hvs IHl]; intros [|[kc c] cs] Fs st K O; try discriminate; try reflexivity.
      destruct Fs as [|f1 Fs]; cbn in O; try tauto. cbn in K. injection K as <- K.
      destruct O as [A B], NB as [N1 N2]. cbn [vdepths List.map snd] in D', Hv. cbn [map_m plant_map fst snd].
      assert (V : vsorted v) by (eapply owns_sorted; eauto). destruct (plant_ok v V st) as (c1 & st1 & F1 & E1 & X & _).
      rewrite (bind_ok _ _ _ (k, c1) st1). 2:{ rewrite (bind_ok _ _ _ c1 st1); [reflexivity|]. rewrite (Hv c f1 f st A N1 ltac:(lia)). exact E1. }
      rewrite (bind_ok _ _ _ _ _ E1). specialize (IHl N2 ltac:(lia) cs Fs st1 K (extends_owns_list _ _ _ _ _ X B)).
      unfold bind at 1 3. rewrite IHl. reflexivity. }
    unfold bind at 1 3. rewrite H. reflexivity.
  - destruct NB.
Qed.
Lemma copy_tree v c F fuel st : owns (h_heap st) v c F -> noblob v -> (vdepth v <= fuel)%nat -> exists c' st' F',
  copy fuel c st = (Ok c', st') /\ extends st st' /\ owns (h_heap st') v c' F' /\ NoDup F' /\ fresh_in st st' F'.
Proof.
  intros O N D. assert (V := owns_sorted _ _ _ _ O). destruct (plant_ok v V st) as (c' & st' & F' & E & R). exists c', st', F'.
  split; [rewrite (copy_plant v c F); auto|exact R].
Qed.
