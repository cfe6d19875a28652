(** What the steps of a difference do to the first document. *)
From Verif Require Import Base CNum Float Value Blob Path Numeric Convert Emit Uri P_Uri P_Equal Heap HeapProofs HeapSpec SharingProofs ValueOps HeapTree
  HeapErase HeapTreeFacts Pointer PointerWalk PointerOps PointerCmp PointerSem PatchSem PointerText P_Pointer DiffSem.
Open Scope N_scope.

(** ** The steps *)
Definition steps (ds : list (path * dop)) : list pstep := List.map (fun d => decode (entry d)) ds.
Lemma components_form p : Forall plain_key p -> components (form_pointer p) = Some (tokens p).
Proof. intros K. rewrite C21_form_pointer_partial by exact K. apply components_text. Qed.
Lemma decode_add p x : Forall plain_key p -> decode (entry (p, DAdd x)) = SAdd (tokens p) x.
Proof.
  intros K. unfold decode, entry, pointer_of, ptext. cbn [vchild]. cbn [app].
  change (mget (s2b "op") _) with (Some (VStr (s2b "add"))). change (mget (s2b "path") _) with (Some (VStr (form_pointer p))).
  change (mget (s2b "value") _) with (Some x). cbn [as_string]. rewrite components_form by exact K. reflexivity.
Qed.
Lemma decode_rep p x : Forall plain_key p -> decode (entry (p, DRep x)) = SReplace (tokens p) x.
Proof.
  intros K. unfold decode, entry, pointer_of, ptext. cbn [vchild]. cbn [app].
  change (mget (s2b "op") _) with (Some (VStr (s2b "replace"))). change (mget (s2b "path") _) with (Some (VStr (form_pointer p))).
  change (mget (s2b "value") _) with (Some x). cbn [as_string]. rewrite components_form by exact K. reflexivity.
Qed.
Lemma decode_rem p : Forall plain_key p -> decode (entry (p, DRem)) = SRemove (tokens p).
Proof.
  intros K. unfold decode, entry, pointer_of, ptext. cbn [vchild].
  change (mget (s2b "op") _) with (Some (VStr (s2b "remove"))). change (mget (s2b "path") _) with (Some (VStr (form_pointer p))).
  cbn [as_string]. rewrite components_form by exact K. reflexivity.
Qed.
Lemma run_app a : forall v b, run v (a ++ b) = match run v a with Some v' => run v' b | None => None end.
Proof. induction a as [|s a IH]; intros v b; cbn [app run]; auto. destruct (outcome v s); auto. Qed.
Lemma along_app P a : forall v b, along P v a -> (forall v', run v a = Some v' -> along P v' b) -> along P v (a ++ b).
Proof.
  induction a as [|s a IH]; intros v b; cbn [app along run]; [auto|]. intros [A B] C. split; auto. destruct (outcome v s); auto.
Qed.
Lemma vset_vset p : forall v x y v1, vset v p x = Some v1 -> vsorted v -> vset v1 p y = vset v p y.
Proof.
  induction p as [|e p IH]; intros v x y v1 E K; cbn [vset] in *; auto.
  set (w := match vchild v e with Some w => w | None => VNull end) in *.
  destruct (vset w p x) as [w'|] eqn:W; [|discriminate]. rewrite (vset_elem_child_same _ _ _ _ K E).
  assert (Kw : vsorted w) by exact (vnow_sorted v e K).
  rewrite (IH _ _ y _ W Kw). destruct (vset w p y) as [w2|]; auto. eapply vset_elem_twice; eauto.
Qed.
Lemma vset_sorted p : forall v x v', vsorted v -> vsorted x -> vset v p x = Some v' -> vsorted v'.
Proof.
  induction p as [|e p IH]; intros v x v' K Kx E; cbn [vset] in E; [congruence|].
  set (w := match vchild v e with Some w => w | None => VNull end) in *.
  destruct (vset w p x) as [w'|] eqn:W; [|discriminate].
  assert (Kw : vsorted w) by exact (vnow_sorted v e K).
  apply (vset_elem_sorted v e w' v'); auto. apply (IH w x w'); auto.
Qed.
Lemma vset_there p : forall v w x, vat v p = Some w -> exists v', vset v p x = Some v'.
Proof.
  induction p as [|e p IH]; intros v w x A; cbn [vat vset] in *; [eauto|]. destruct (vchild v e) as [y|] eqn:C; [|discriminate].
  destruct (IH _ _ x A) as [y' ->]. destruct v, e; try discriminate; cbn; eauto.
Qed.

(** ** Documents the claim is about *)
Definition key_safe (v : value) : Prop := forall q w, vat v q = Some w -> Forall plain_key q.
Definition good (v : value) : Prop := vok v /\ vsorted v /\ plain v /\ lists_fit v /\ key_safe v.
Definition noshrink (x y : value) : Prop := forall q l1 l2, vat x q = Some (VList l1) -> vat y q = Some (VList l2) -> (List.length l1 <= List.length l2)%nat.
Definition osame (a b : option value) : Prop := match a, b with Some x, Some y => same x y | None, None => True | _, _ => False end.
Lemma vok_child v e w : vok v -> vchild v e = Some w -> vok w.
Proof.
  destruct v, e; try discriminate; cbn [vchild].
  - intros V E. apply nth_error_In in E. induction l as [|a l IH]; [destruct E|]. cbn in V. destruct V as [V1 V2]. destruct E as [->|E]; auto.
  - intros [_ V] E. apply mget_In in E. induction m as [|a m IH]; [destruct E|]. cbn in V. destruct V as [V1 V2]. destruct E as [->|E]; auto.
Qed.
Lemma plain_child v e w : plain v -> vchild v e = Some w -> plain w.
Proof.
  destruct v, e; try discriminate; cbn [vchild]; intros P E.
  - apply plain_list_inv in P. rewrite Forall_forall in P. apply P. eapply nth_error_In; eauto.
  - apply plain_map_inv in P. rewrite Forall_forall in P. apply mget_In in E. apply (P _ E).
Qed.
Lemma good_child v e w : good v -> vchild v e = Some w -> good w /\ plain_key e.
Proof.
  intros (V & S & P & L & K) E. split; [split; [|split; [|split; [|split]]]|].
  - eapply vok_child; eauto.
  - eapply vsorted_child; eauto.
  - eapply plain_child; eauto.
  - eapply lists_fit_child; eauto.
  - intros q u A. assert (H := K (e :: q) u). cbn [vat] in H. rewrite E in H. apply H in A. inversion A; auto.
  - assert (H := K [e] w). cbn [vat] in H. rewrite E in H. specialize (H eq_refl). inversion H; auto.
Qed.
Lemma noshrink_child x y e a b : noshrink x y -> vchild x e = Some a -> vchild y e = Some b -> noshrink a b.
Proof. intros N A B q l1 l2 Q1 Q2. apply (N (e :: q)); cbn [vat]; [rewrite A|rewrite B]; auto. Qed.
Lemma plain_noblob v : plain v -> noblob v.
Proof.
  induction v as [| | | | | |l IH|m IH|x] using value_ind'; intros P; try exact I.
  - apply noblob_VList. apply plain_list_inv in P. induction IH as [|a l Ha IH1 IH2]; [exact I|]. inversion P; subst. split; auto.
  - apply noblob_VMap. apply plain_map_inv in P. induction IH as [|a l Ha IH1 IH2]; [exact I|]. inversion P; subst. split; auto.
  - inversion P; discriminate.
Qed.
Lemma compare_good x y : good x -> good y -> exists z, vcompare x y = Ok z /\ (z = 0%Z <-> same x y).
Proof.
  intros (V & _ & P & _) (W & _ & Q & _). destruct (C18_equal_partial x y V W P Q) as (r & E & H). unfold v_eq in E.
  destruct (vcompare x y) as [z| | | |]; try discriminate. exists z. split; auto. cbn in E. injection E as E. rewrite <- H, <- E. symmetry. apply Z.eqb_eq.
Qed.

(** ** The same children *)
Lemma same_lists l : forall r, (forall i, osame (nth_error l i) (nth_error r i)) -> Forall2 same l r.
Proof.
  induction l as [|a l IH]; intros [|b r] H; try (specialize (H O); exfalso; exact H); constructor.
  - exact (H O).
  - apply IH. intros i. exact (H (S i)).
Qed.
Lemma same_maps (m : list (bytes * value)) : forall r, msorted m -> msorted r -> (forall k, osame (mget k m) (mget k r)) ->
  Forall2 (fun p q => fst p = fst q /\ same (snd p) (snd q)) m r.
Proof.
  induction m as [|[k a] m IH]; intros [|[j b] r] S T H.
  - constructor.
  - specialize (H j). cbn [mget] in H. rewrite beqb_refl in H. exfalso. exact H.
  - specialize (H k). cbn [mget] in H. rewrite beqb_refl in H. exfalso. exact H.
  - destruct S as [S1 S2], T as [T1 T2].
    assert (Ne : forall k' (m' : list (bytes * value)) v, mget k' m' = Some v -> In k' (mkeys m')) by (intros k' m' v G; apply mget_In, (in_map fst) in G; exact G).
    assert (k = j).
    { assert (H1 := H k). assert (H2 := H j). cbn [mget] in H1, H2. rewrite beqb_refl in H1, H2.
      destruct (beqb k j) eqn:E; [apply beqb_eq; exact E|]. assert (E' : beqb j k = false).
      { destruct (beqb j k) eqn:F; auto. apply beqb_eq in F. subst. rewrite beqb_refl in E. discriminate. } rewrite E' in H2.
      destruct (mget k r) as [u|] eqn:G1; [|exfalso; exact H1]. destruct (mget j m) as [u'|] eqn:G2; [|exfalso; exact H2].
      apply Ne, T1 in G1. apply Ne, S1 in G2. assert (C := bcmp_antisym j k). rewrite G1, G2 in C. discriminate. }
    subst j. assert (G : same a b). { assert (H1 := H k). cbn [mget] in H1. rewrite beqb_refl in H1. exact H1. }
    constructor; [split; auto|]. apply IH; auto. intros k'. assert (H1 := H k'). cbn [mget] in H1. destruct (beqb k' k) eqn:E; auto. apply beqb_eq in E. subst k'.
    destruct (mget k m) as [u|] eqn:G1; [apply Ne, S1, bcmp_lt_neq in G1; congruence|]. destruct (mget k r) as [u|] eqn:G2; [apply Ne, T1, bcmp_lt_neq in G2; congruence|]. exact I.
Qed.
Lemma same_children x y : vsorted x -> vsorted y -> type_of x = type_of y -> container_value x = true -> (forall e, osame (vchild x e) (vchild y e)) -> same x y.
Proof.
  intros Sx Sy T C H. destruct x, y; try discriminate.
  - constructor. apply same_lists. intros i. assert (Q := H (PIdx (N.of_nat i))). cbn [vchild] in Q. rewrite Nat2N.id in Q. exact Q.
  - constructor. apply vsorted_map in Sx. apply vsorted_map in Sy. apply same_maps; try tauto. intros k. exact (H (PKey k)).
Qed.

(** ** Carrying out the difference *)
Definition lands (D : value) (p : path) (ds : list (path * dop)) (x' : value) : Prop :=
  exists D', vset D p x' = Some D' /\ run D (steps ds) = Some D' /\ along admissible D (steps ds).
Lemma lands_nil D p x : vsorted D -> vat D p = Some x -> lands D p [] x.
Proof. intros K A. exists D. split; [|split; [reflexivity|exact I]]. clear -K A. revert D K A. induction p as [|e p IH]; intros D K A; cbn [vat vset] in *; [congruence|].
  destruct (vchild D e) as [w|] eqn:C; [|discriminate]. rewrite (IH w); eauto using vsorted_child. eapply vset_elem_same; eauto. Qed.
Lemma lands_app D p d1 d2 x1 x2 : vsorted D -> lands D p d1 x1 -> (forall D1, vset D p x1 = Some D1 -> lands D1 p d2 x2) -> lands D p (d1 ++ d2) x2.
Proof.
  intros K (D1 & E1 & R1 & A1) H. destruct (H D1 E1) as (D2 & E2 & R2 & A2). exists D2. unfold steps in *. rewrite map_app.
  split; [rewrite <- E2; symmetry; eapply vset_vset; eauto|]. split; [rewrite run_app, R1; exact R2|]. apply along_app; auto. intros v' R. congruence.
Qed.
(** A step at an element is a step of the container. *)
Lemma lands_up D p e ds X a' : vat D p = Some X -> lands D (p ++ [e]) ds a' -> exists X1, vset_elem X e a' = Some X1 /\ lands D p ds X1.
Proof.
  intros A (D' & E & R & L). rewrite (vset_last _ _ _ _ _ A) in E. destruct (vset_elem X e a') as [X1|]; [|discriminate]. exists X1. split; auto. exists D'. auto.
Qed.
Lemma steps_one d : steps [d] = [decode (entry d)]. Proof. reflexivity. Qed.
Lemma tokens_last p e : tokens (p ++ [e]) = tokens p ++ [tok e]. Proof. unfold tokens. rewrite map_app. reflexivity. Qed.

Lemma lands_rep D p x y : vat D p = Some x -> Forall plain_key p -> Forall idx32 p -> lands D p [(p, DRep y)] y.
Proof.
  intros A K I. destruct (vset_there p D x y A) as [D' E]. exists D'. split; auto. rewrite steps_one, decode_rep by exact K. cbn [run along].
  unfold outcome. cbn [refused step admissible]. rewrite (route_tokens _ _ _ A I). unfold rreplace. rewrite A, E. auto.
Qed.
Lemma lands_add D p e X y : vat D p = Some X -> lists_fit D -> Forall plain_key (p ++ [e]) -> Forall idx32 (p ++ [e]) -> kind_for e X ->
  match e, X with PIdx i, VList l => N.to_nat i = List.length l | _, _ => True end ->
  exists X1, rinsert X e y = Some X1 /\ lands D p [(p ++ [e], DAdd y)] X1.
Proof.
  intros A L K I Kf En. apply Forall_app in I. destruct I as [I1 I2]. inversion I2 as [|? ? I3 _]; subst.
  assert (R : forall z, exists X1, rinsert X e z = Some X1).
  { intros z. destruct e; destruct Kf as [? ->]; cbn [rinsert]; [eauto|]. rewrite En, Nat.leb_refl. eauto. }
  destruct (R y) as [X1 R1]. exists X1. split; auto. destruct (vset_there p D X X1 A) as [D' E]. exists D'. split; auto.
  rewrite steps_one, decode_add by exact K. cbn [run along]. unfold outcome. cbn [refused step admissible].
  assert (Sp : spot D (tokens (p ++ [e])) = Some (p ++ [e])).
  { rewrite tokens_last, spot_last, (route_tokens _ _ _ A I1), A. destruct e as [k|i]; destruct Kf as [? ->]; cbn [place_for tok]; auto.
    rewrite not_dash, is_index_dec; auto. cbn in I3. lia. }
  unfold add_through. rewrite Sp, radd_last, A, R1, E. split; auto. split; [|exact I].
  split; auto. rewrite Sp. intros q Q. injection Q as <-. rewrite radd_last, A. destruct (R VNull) as [X2 R2]. rewrite R2. destruct (vset_there p D X X2 A) as [D2 ->]. discriminate.
Qed.
Lemma lands_rem D p k m w : vat D p = Some (VMap m) -> Forall plain_key (p ++ [PKey k]) -> Forall idx32 p -> mget k m = Some w ->
  lands D p [(p ++ [PKey k], DRem)] (VMap (mdel k m)).
Proof.
  intros A K I G. destruct (vset_there p D _ (VMap (mdel k m)) A) as [D' E]. exists D'. split; auto.
  rewrite steps_one, decode_rem by exact K. cbn [run along]. unfold outcome. cbn [refused step admissible].
  assert (Rt : route D (tokens (p ++ [PKey k])) = Some (p ++ [PKey k])).
  { apply (route_tokens _ _ w); [rewrite vat_last, A; exact G|]. apply Forall_app. split; auto. repeat constructor. }
  rewrite Rt, in_list_last, A, rremove_last, A. cbn [rdelete]. rewrite G, E. auto.
Qed.

Lemma fits_intro x : (forall l, x = VList l -> N.of_nat (List.length l) < 2^32 - 1) -> (forall e w, vchild x e = Some w -> lists_fit w) -> lists_fit x.
Proof. intros H C [|e q] vs A; cbn [vat] in A; [injection A as ->; auto|]. destruct (vchild x e) as [w|] eqn:W; [|discriminate]. eapply (C e w W); eauto. Qed.
Lemma fits_at p : forall v w, lists_fit v -> vat v p = Some w -> lists_fit w.
Proof. induction p as [|e p IH]; intros v w L A; cbn [vat] in A; [injection A as <-; exact L|]. destruct (vchild v e) eqn:C; [|discriminate]. eauto using lists_fit_child. Qed.
Lemma seq_split {A} (f : nat -> A) done : forall a n e es, List.map f (seq a n) = done ++ e :: es ->
  e = f (a + List.length done)%nat /\ forall j, (j < List.length done)%nat -> In (f (a + j)%nat) done.
Proof.
  induction done as [|d done IH]; intros a [|n] e es E; cbn [seq List.map app] in E; try discriminate.
  - injection E as E _. cbn. rewrite Nat.add_0_r. split; [auto|intros j J; lia].
  - injection E as E1 E2. destruct (IH _ _ _ _ E2) as [A1 A2]. cbn [List.length]. split; [rewrite A1; f_equal; lia|].
    intros [|j] J; [left; rewrite Nat.add_0_r; auto|]. right. replace (a + S j)%nat with (S a + j)%nat by lia. apply A2. lia.
Qed.
Lemma elems_cover x y e : type_of x = type_of y -> container_value x = true -> vsorted x -> vsorted y -> ~ In e (elems_of x y) -> vchild x e = None /\ vchild y e = None.
Proof.
  intros T C Sx Sy N. destruct x, y; try discriminate; destruct e as [k|i]; cbn [vchild elems_of] in *; auto.
  - assert (H : (Nat.max (List.length l) (List.length l0) <= N.to_nat i)%nat).
    { destruct (Nat.le_gt_cases (Nat.max (List.length l) (List.length l0)) (N.to_nat i)); auto. destruct N. apply in_map_iff. exists (N.to_nat i).
      split; [f_equal; lia|]. apply in_seq. lia. }
    split; apply nth_error_None; lia.
  - assert (H : ~ In k (mkeys m) /\ ~ In k (mkeys m0)).
    { destruct (vkeys_spec m m0) as [_ V]. split; intros J; apply N, in_map, V; auto. }
    split; [destruct (mget k m) eqn:G|destruct (mget k m0) eqn:G]; auto; apply mget_In, (in_map fst) in G; unfold mkeys in H; tauto.
Qed.
Lemma elems_present x y e : type_of x = type_of y -> In e (elems_of x y) -> vchild x e <> None \/ vchild y e <> None.
Proof.
  intros T J. destruct x, y; try (exfalso; exact J); try discriminate; cbn [elems_of] in J; apply in_map_iff in J; destruct J as (i & <- & J); cbn [vchild].
  - rewrite Nat2N.id. apply in_seq in J. destruct (Nat.lt_ge_cases i (List.length l)); [left|right]; apply nth_error_Some; lia.
  - apply vkeys_spec in J. destruct J as [J|J]; [left|right]; intros G; apply mget_notin in G; auto.
Qed.
Lemma insert_child X e y X1 : vsorted X -> rinsert X e y = Some X1 -> match e, X with PIdx i, VList l => N.to_nat i = List.length l | _, _ => True end ->
  vchild X1 e = Some y /\ (forall f, f <> e -> vchild X1 f = vchild X f) /\ type_of X1 = type_of X.
Proof.
  intros S R En. destruct X, e; try discriminate; cbn [rinsert] in R.
  - rewrite En, Nat.leb_refl, insert_end in R. injection R as <-. cbn [vchild type_of]. rewrite En. rewrite nth_error_app2, Nat.sub_diag by lia.
    split; [reflexivity|]. split; [|reflexivity]. intros [k|j] Ne; auto. cbn [vchild]. destruct (Nat.lt_ge_cases (N.to_nat j) (List.length l)) as [H|H].
    + rewrite nth_error_app1 by lia. reflexivity.
    + assert (N.to_nat j <> List.length l) by (intros Q; apply Ne; f_equal; lia). rewrite !(proj2 (nth_error_None _ _)); auto. rewrite app_length. cbn. lia.
  - injection R as <-. cbn [vchild type_of]. apply vsorted_map in S. destruct S as [S _]. rewrite mget_mset, beqb_refl by exact S. split; [auto|]. split; [|auto].
    intros [j|] Ne; auto. cbn [vchild]. rewrite mget_mset by exact S. destruct (beqb j k) eqn:B; auto. apply beqb_eq in B. congruence.
Qed.
Lemma insert_sorted X e y X1 : vsorted X -> vsorted y -> rinsert X e y = Some X1 -> match e, X with PIdx i, VList l => N.to_nat i = List.length l | _, _ => True end -> vsorted X1.
Proof.
  intros S Sy R En. destruct X, e; try discriminate; cbn [rinsert] in R.
  - rewrite En, Nat.leb_refl, insert_end in R. injection R as <-. apply vsorted_list. apply vsorted_list in S. apply Forall_app. auto.
  - injection R as <-. eapply (vset_elem_sorted (VMap m) (PKey k) y); eauto.
Qed.
Lemma delete_child k m : msorted m -> forall f, f <> PKey k -> vchild (VMap (mdel k m)) f = vchild (VMap m) f.
Proof. intros S [j|] Ne; auto. cbn [vchild]. rewrite mget_mdel by exact S. destruct (beqb j k) eqn:B; auto. apply beqb_eq in B. congruence. Qed.
Lemma delete_gone k m : msorted m -> vchild (VMap (mdel k m)) (PKey k) = None.
Proof. intros S. cbn [vchild]. rewrite mget_mdel, beqb_refl by exact S. reflexivity. Qed.

Lemma pelem_dec (a b : pelem) : {a = b} + {a <> b}.
Proof. decide equality; [apply (list_eq_dec ascii_dec)|apply N.eq_dec]. Defined.
Definition runs (n : nat) : Prop := forall x y p D, (vdepth x < n)%nat -> vat D p = Some x -> vsorted D -> lists_fit D -> Forall plain_key p -> Forall idx32 p ->
  good x -> good y -> noshrink x y -> exists x', same x' y /\ lists_fit x' /\ vsorted x' /\ lands D p (vdiff n (Some x) (Some y) p) x'.
Lemma loop_runs n x y p : runs n -> (vdepth x <= n)%nat -> good x -> good y -> noshrink x y -> type_of x = type_of y -> container_value x = true ->
  Forall plain_key p -> Forall idx32 p -> forall es done X D,
  elems_of x y = done ++ es -> vat D p = Some X -> vsorted D -> lists_fit D -> type_of X = type_of x ->
  (forall e, In e done -> osame (vchild X e) (vchild y e)) -> (forall e, ~ In e done -> vchild X e = vchild x e) ->
  exists X', (forall e, osame (vchild X' e) (vchild y e)) /\ type_of X' = type_of x /\ vsorted X' /\ lists_fit X' /\
    lands D p (flat_map (fun e => vdiff n (vchild x e) (vchild y e) (p ++ [e])) es) X'.
Proof.
  intros IH Dx Gx Gy Ns Ty Cv Kp Ip. assert (Sx : vsorted x) by apply Gx. assert (Sy : vsorted y) by apply Gy.
  destruct (elems_facts x y Sx Sy) as [ND KF]; [apply Gx|apply Gy|exact Ty|].
  induction es as [|e es IHes]; intros done X D Ed A SD LD TX Hd Hr.
  - exists X. rewrite app_nil_r in Ed. split; [|split; [|split; [|split]]]; auto.
    + intros e. destruct (in_dec pelem_dec e done) as [J|J]; auto. rewrite (Hr e J). rewrite <- Ed in J.
      destruct (elems_cover x y e Ty Cv Sx Sy J) as [-> ->]. exact I.
    + eapply vsorted_vat; eauto.
    + eapply fits_at; eauto.
    + apply lands_nil; auto.
  - assert (SX : vsorted X) by (eapply vsorted_vat; eauto). assert (LX : lists_fit X) by (eapply fits_at; eauto).
    assert (Je : In e (elems_of x y)) by (rewrite Ed; apply in_or_app; right; left; reflexivity).
    assert (Nd : ~ In e done). { rewrite Ed in ND. apply nodup_app in ND. destruct ND as (_ & _ & ND). intros J. apply (ND e J). left. reflexivity. }
    assert (Xe := Hr e Nd). rewrite Forall_forall in KF. destruct (KF e Je) as [K1 K2].
    assert (KX : kind_for e X) by (destruct e; destruct K1 as [u ->]; destruct X; try discriminate; cbn; eauto).
    assert (Fin : forall X1, osame (vchild X1 e) (vchild y e) ->
        (forall f, f <> e -> vchild X1 f = vchild X f) -> type_of X1 = type_of X -> vsorted X1 -> lists_fit X1 -> lands D p (vdiff n (vchild x e) (vchild y e) (p ++ [e])) X1 ->
        exists X', (forall e, osame (vchild X' e) (vchild y e)) /\ type_of X' = type_of x /\ vsorted X' /\ lists_fit X' /\
          lands D p (flat_map (fun e => vdiff n (vchild x e) (vchild y e) (p ++ [e])) (e :: es)) X').
    { intros X1 Hs Ho T1 S1 L1 La. assert (La' := La). destruct La' as (D1 & E1 & _). destruct (IHes (done ++ [e]) X1 D1) as (X' & P1 & P2 & P3 & P4 & P5).
      - rewrite <- app_assoc. exact Ed.
      - assert (Q := vat_vset D p X1 D1 [] SD E1). rewrite app_nil_r in Q. exact Q.
      - apply (vset_sorted p D X1 D1); auto.
      - apply (lists_fit_set p D X X1 D1); auto.
      - congruence.
      - intros f J. destruct (pelem_dec f e) as [->|Ne]; auto. rewrite (Ho f Ne). apply Hd. apply in_app_or in J. destruct J as [J|[J|[]]]; [auto|congruence].
      - intros f J. rewrite in_app_iff in J. rewrite (Ho f) by (intros ->; apply J; right; left; reflexivity). apply Hr. tauto.
      - exists X'. repeat (split; [assumption|]). cbn [flat_map]. eapply lands_app; eauto. intros D2 E2. rewrite E1 in E2. injection E2 as <-. exact P5. }
    assert (Pe : plain_key e).
    { destruct (elems_present x y e Ty Je) as [H|H].
      - destruct (vchild x e) as [w|] eqn:W; [|congruence]. apply (good_child _ _ _ Gx W).
      - destruct (vchild y e) as [w|] eqn:W; [|congruence]. apply (good_child _ _ _ Gy W). }
    assert (Ie : idx32 e).
    { destruct e as [|i]; [exact I|]. destruct K1 as [u ->], K2 as [u' ->]. cbn [elems_of] in Je. apply in_map_iff in Je. destruct Je as (j & Ej & J). injection Ej as <-.
      apply in_seq in J. assert (Q1 := proj1 (proj2 (proj2 (proj2 Gx))) [] u eq_refl). assert (Q2 := proj1 (proj2 (proj2 (proj2 Gy))) [] u' eq_refl). cbn. lia. }
    assert (Kpe : Forall plain_key (p ++ [e])) by (apply Forall_app; auto). assert (Ipe : Forall idx32 (p ++ [e])) by (apply Forall_app; auto).
    destruct (vchild x e) as [a|] eqn:Va, (vchild y e) as [b|] eqn:Vb.
    + destruct (good_child _ _ _ Gx Va) as [Ga _], (good_child _ _ _ Gy Vb) as [Gb _]. assert (Q := vdepth_child _ _ _ Va).
      destruct (IH a b (p ++ [e]) D) as (a' & Sa & La & Sta & Lan); auto; [lia|rewrite vat_last, A; exact Xe|eapply noshrink_child; eauto|].
      destruct (lands_up D p e _ X a' A Lan) as (X1 & E1 & Lan1). apply (Fin X1); auto.
      * rewrite (vset_elem_child_same X e a' X1 SX E1). exact Sa.
      * intros f Ne. eapply vset_elem_other; eauto.
      * destruct X, e; try discriminate; injection E1 as <-; try reflexivity.
      * apply (vset_elem_sorted X e a' X1); auto.
      * apply (lists_fit_set [e] X a a' X1); auto; cbn [vat vset]; rewrite Xe; auto.
    + destruct e as [k|i].
      * destruct K1 as [m1 ->]. destruct KX as [m ->]. assert (Sm : msorted m) by (apply vsorted_map in SX; apply SX). cbn [vchild] in Xe.
        apply (Fin (VMap (mdel k m))); auto.
        -- rewrite delete_gone by exact Sm. exact I.
        -- apply delete_child, Sm.
        -- assert (Qs : verase_elem (VMap m) (PKey k) = Some (VMap (mdel k m))) by reflexivity. exact (verase_elem_sorted _ _ _ SX Qs).
        -- apply fits_intro; [discriminate|]. intros f w W. destruct (pelem_dec f (PKey k)) as [->|Ne]; [rewrite delete_gone in W by exact Sm; discriminate|].
           rewrite delete_child in W by auto. eapply lists_fit_child; eauto.
        -- destruct n as [|n']; [assert (Q := vdepth_pos (VMap m1)); lia|]. cbn [vdiff]. eapply lands_rem; eauto.
      * exfalso. destruct K1 as [u ->], K2 as [u' ->]. cbn [vchild] in Va, Vb. assert (Q := Ns [] u u' eq_refl eq_refl). apply nth_error_None in Vb.
        assert (nth_error u (N.to_nat i) <> None) by congruence. apply nth_error_Some in H. lia.
    + destruct (good_child _ _ _ Gy Vb) as [Gb _].
      assert (En : match e, X with PIdx i, VList l => N.to_nat i = List.length l | _, _ => True end).
      { destruct e as [|i]; [exact I|]. destruct KX as [u ->]. destruct K1 as [u1 ->], K2 as [u2 ->]. cbn [elems_of] in Ed. destruct (seq_split _ _ _ _ _ _ Ed) as [Ei Hj].
        injection Ei as ->. cbn [Nat.add]. rewrite Nat2N.id. cbn [vchild] in Xe. rewrite Nat2N.id in Xe. apply nth_error_None in Xe.
        destruct (Nat.lt_ge_cases (List.length u) (List.length done)) as [Lt|]; [|lia]. exfalso.
        assert (J := Hd _ (Hj _ Lt)). cbn [vchild Nat.add] in J. rewrite Nat2N.id in J. rewrite (proj2 (nth_error_None u _)) in J by lia.
        cbn [vchild] in Vb. rewrite Nat2N.id in Vb. assert (nth_error u2 (List.length done) <> None) by congruence. apply nth_error_Some in H.
        destruct (nth_error u2 (List.length u)) eqn:Z; [exact J|]. apply nth_error_None in Z. lia. }
      destruct (lands_add D p e X b A LD Kpe Ipe KX En) as (X1 & R1 & Lan). destruct (insert_child X e b X1 SX R1 En) as (C1 & C2 & C3). apply (Fin X1); auto.
      * rewrite C1. apply same_refl, Gb.
      * apply (insert_sorted X e b X1); auto. apply Gb.
      * apply fits_intro.
        -- intros l ->. destruct X, e; try discriminate; cbn [rinsert] in R1. rewrite En, Nat.leb_refl, insert_end in R1. injection R1 as <-. rewrite app_length. cbn.
           destruct K2 as [u2 ->]. assert (Q2 := proj1 (proj2 (proj2 (proj2 Gy))) [] u2 eq_refl). cbn [vchild] in Vb.
           assert (nth_error u2 (N.to_nat i) <> None) by congruence. apply nth_error_Some in H. lia.
        -- intros f w W. destruct (pelem_dec f e) as [->|Ne]; [rewrite C1 in W; injection W as <-; apply Gb|]. rewrite C2 in W by exact Ne. eapply lists_fit_child; eauto.
      * destruct n as [|n']; [assert (Q := vdepth_pos x); lia|]. cbn [vdiff]. exact Lan.
    + destruct (elems_present x y e Ty Je); congruence.
Qed.
Lemma runs_all n : runs n.
Proof.
  induction n as [|n IH]; intros x y p D Dx A SD LD Kp Ip Gx Gy Ns; [lia|]. cbn [vdiff].
  assert (Rep : exists x', same x' y /\ lists_fit x' /\ vsorted x' /\ lands D p [(p, DRep y)] x').
  { exists y. split; [apply same_refl, Gy|]. split; [apply Gy|]. split; [apply Gy|]. eapply lands_rep; eauto. }
  destruct (vtype_eqb (type_of x) (type_of y)) eqn:T; [|exact Rep]. apply vtype_eqb_eq in T.
  destruct (compare_good x y Gx Gy) as (z & -> & Hz). destruct (Z.eqb_spec z 0) as [Z|Z].
  - exists x. split; [apply Hz, Z|]. split; [apply Gx|]. split; [apply Gx|]. apply lands_nil; auto.
  - destruct (container_value x) eqn:C; [|exact Rep].
    destruct (loop_runs n x y p IH ltac:(lia) Gx Gy Ns T C Kp Ip (elems_of x y) [] x D eq_refl A SD LD eq_refl) as (X' & H1 & H2 & H3 & H4 & H5).
    + intros e [].
    + auto.
    + exists X'. split; [|auto]. apply same_children; auto; [apply Gy|congruence|]. destruct x, X'; try discriminate; reflexivity.
Qed.
