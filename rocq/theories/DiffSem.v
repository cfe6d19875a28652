(** What JSONDiff makes of two documents that are trees, and what applying it does. *)
From Verif Require Import Base CNum Float Value Blob Path Numeric Convert Emit Uri P_Uri P_Equal Heap HeapProofs HeapSpec SharingProofs ValueOps HeapTree
  HeapErase HeapTreeFacts Pointer PointerWalk PointerOps PointerCmp PointerSem PatchSem PointerText.
Open Scope N_scope.

(** ** The difference of two values *)
Inductive dop := DRem | DAdd (x : value) | DRep (x : value).
Definition vkeys (m1 m2 : list (bytes * value)) : list bytes :=
  List.map fst (fold_left (fun m k => mset k tt m) (mkeys m1) (fold_left (fun m k => mset k tt m) (mkeys m2) [])).
Definition elems_of (x y : value) : list pelem :=
  match x, y with
  | VList l1, VList l2 => List.map (fun i => PIdx (N.of_nat i)) (seq 0 (Nat.max (List.length l1) (List.length l2)))
  | VMap m1, VMap m2 => List.map PKey (vkeys m1 m2)
  | _, _ => []
  end.
Definition container_value (x : value) : bool := match x with VList _ | VMap _ => true | _ => false end.
Fixpoint vdiff (n : nat) (a b : option value) (p : path) : list (path * dop) :=
  match n with
  | O => []
  | S n' =>
      match b, a with
      | None, _ => [(p, DRem)]
      | Some y, None => [(p, DAdd y)]
      | Some y, Some x =>
          if vtype_eqb (type_of x) (type_of y) then
            if (match vcompare x y with Ok z => (z =? 0)%Z | _ => false end) then []
            else if container_value x then flat_map (fun e => vdiff n' (vchild x e) (vchild y e) (p ++ [e])) (elems_of x y)
            else [(p, DRep y)]
          else [(p, DRep y)]
      end
  end.
Definition entry (pd : path * dop) : value :=
  let '(p, d) := pd in
  let e op := [(s2b "op", VStr (s2b op)); (s2b "path", VStr (form_pointer p))] in
  match d with
  | DRem => VMap (e "remove"%string)
  | DAdd x => VMap (e "add"%string ++ [(s2b "value", x)])
  | DRep x => VMap (e "replace"%string ++ [(s2b "value", x)])
  end.

(** ** Storages that are kept *)
Definition grows (t : nat) (st st' : hstate) : Prop :=
  h_vars st' = h_vars st /\ (hlen st <= hlen st')%nat /\ forall s, (s < hlen st)%nat -> s <> t -> nth_error (h_heap st') s = nth_error (h_heap st) s.
Lemma grows_refl t st : grows t st st. Proof. repeat split; auto. Qed.
Lemma grows_trans t a b c : grows t a b -> grows t b c -> grows t a c.
Proof. intros (V1 & L1 & N1) (V2 & L2 & N2). split; [congruence|]. split; [lia|]. intros s H Ne. rewrite N2 by (auto; lia). auto. Qed.
Lemma grows_owns t st st' cs v c F : grows t st st' -> nth_error (h_heap st) t = Some (StList cs) -> owns (h_heap st) v c F -> ~ In t F -> owns (h_heap st') v c F.
Proof.
  intros (V & L & N) E O NT. apply owns_frame with (h := h_heap st); auto.
  - intros s x X C. rewrite N; auto; [unfold hlen; apply nth_error_Some; congruence|]. intros ->. rewrite E in X. injection X as <-. apply C. exact I.
  - intros s J. apply N; [unfold hlen; eapply owns_lt; eauto|]. intros ->. auto.
Qed.
Lemma grows_owns_list t st st' cs vs cl Fs : grows t st st' -> nth_error (h_heap st) t = Some (StList cs) -> owns_list (h_heap st) vs cl Fs -> ~ In t (List.concat Fs) ->
  owns_list (h_heap st') vs cl Fs.
Proof.
  intros G E. revert cl Fs; induction vs as [|v vs IH]; intros [|c cl] [|f Fs]; cbn [owns_list List.concat]; auto. intros [A B] N. rewrite in_app_iff in N.
  split; [eapply grows_owns; eauto|apply IH; auto].
Qed.
Lemma grows_tree t st st' cs l v c F : grows t st st' -> nth_error (h_heap st) t = Some (StList cs) -> tree st l v c F -> outside l [t] -> ~ In t F -> tree st' l v c F.
Proof.
  intros G E [P O ND OL LS] Ot NT. assert (G' := G). destruct G' as (V & L & N). split; auto.
  - destruct l as [x|s i|s k]; cbn [peek outside] in *; [rewrite V; auto| |]; (destruct (nth_error (h_heap st) s) eqn:X; [|discriminate]);
      rewrite N, X; auto; try (unfold hlen; apply nth_error_Some; congruence); intros ->; apply Ot; left; reflexivity.
  - eapply grows_owns; eauto.
  - destruct l as [x|s i|s k]; cbn [lsorted peek outside] in *; auto. intros m Hm. apply LS. rewrite <- Hm. symmetry.
    apply N; [|intros ->; apply Ot; left; reflexivity]. destruct (nth_error (h_heap st) s) eqn:X; [|discriminate]. unfold hlen. apply nth_error_Some. congruence.
Qed.

(** ** One entry *)
Definition entryv (op : bytes) (p : path) (o : option value) : value :=
  VMap ([(s2b "op", VStr op); (s2b "path", VStr (form_pointer p))] ++ match o with Some x => [(s2b "value", x)] | None => [] end).
Lemma extends_grows t a b : extends a b -> grows t a b.
Proof. intros X. split; [apply X|]. split; [apply extends_len, X|]. intros s H _. apply extends_nth; auto. Qed.
Lemma entry_sorted op p (o : option value) : msorted ([(s2b "op", VStr op); (s2b "path", VStr (form_pointer p))] ++ match o with Some x => [(s2b "value", x)] | None => [] end).
Proof. destruct o; cbn; repeat split; try (intros k' [<-|[<-|[]]]; reflexivity); try (intros k' [<-|[]]; reflexivity); intros k' []. Qed.
Lemma diff_entry_sem st t cs op p o x Fx : nth_error (h_heap st) t = Some (StList cs) ->
  match o, x with Some c, Some v => owns (h_heap st) v c Fx | None, None => Fx = [] | _, _ => False end ->
  exists st' sm, diff_entry t op p o st = (Ok tt, st') /\ nth_error (h_heap st') t = Some (StList (cs ++ [CMap sm])) /\ grows t st st' /\
    (~ In t Fx -> owns (h_heap st') (entryv op p x) (CMap sm) (sm :: Fx)) /\ (hlen st <= sm < hlen st')%nat.
Proof.
  intros E Ox. assert (Lt : (t < hlen st)%nat) by (unfold hlen; apply nth_error_Some; congruence).
  destruct (alloc_ok (StStr op) st) as (st1 & E1 & X1 & N1 & L1). destruct (alloc_ok (StStr (form_pointer p)) st1) as (st2 & E2 & X2 & N2 & L2).
  set (m0 := [(s2b "op", CStr (hlen st)); (s2b "path", CStr (hlen st1))]).
  assert (Em : mset (s2b "path") (CStr (hlen st1)) (mset (s2b "op") (CStr (hlen st)) []) = m0) by reflexivity.
  destruct (alloc_ok (StMap m0) st2) as (st3 & E3 & X3 & N3 & L3).
  assert (X13 : extends st st3) by (eapply extends_trans; [exact X1|eapply extends_trans; eauto]).
  assert (H : exists st4, (match o with Some c => map_set_key (hlen st2) (s2b "value") c | None => ret tt end) st3 = (Ok tt, st4) /\ grows (hlen st2) st3 st4 /\ hlen st4 = hlen st3 /\
    nth_error (h_heap st4) (hlen st2) = Some (StMap (m0 ++ match o with Some c => [(s2b "value", c)] | None => [] end))).
  { destruct o as [c|].
    - unfold map_set_key, map_insert. destruct (put_storage_upd st3 (hlen st2) (StMap (mset (s2b "value") CNull m0)) _ N3) as (st4 & E4 & V4 & L4 & N4).
      assert (X4 : nth_error (h_heap st4) (hlen st2) = Some (StMap (m0 ++ [(s2b "value", CNull)]))) by (rewrite N4, Nat.eqb_refl; reflexivity).
      assert (P4 : peek st4 (LKey (hlen st2) (s2b "value")) = Some CNull) by (cbn [peek]; rewrite X4; reflexivity).
      destruct (store_ok st4 _ _ c P4) as (st5 & E5 & V5 & H5 & L5). exists st5. split.
      + rewrite (bind_ok _ _ _ tt st4); [exact E5|]. rewrite (bind_get_map _ _ _ _ N3). exact E4.
      + split; [|split; [unfold hlen in *; congruence|]].
        * split; [rewrite V5; exact V4|]. split; [unfold hlen in *; lia|]. intros s Hs Ne. rewrite H5, N4. destruct (Nat.eqb_spec s (hlen st2)); [congruence|].
          cbn [patch]. destruct (nth_error (h_heap st3) s) as [[]|]; auto. destruct (Nat.eqb_spec s (hlen st2)); congruence.
        * rewrite H5, X4. cbn [patch]. rewrite Nat.eqb_refl. reflexivity.
    - exists st3. split; [reflexivity|]. split; [apply grows_refl|]. split; [auto|]. rewrite N3. reflexivity. }
  destruct H as (st4 & E4 & G4 & L4 & N4).
  assert (Et : nth_error (h_heap st4) t = Some (StList cs)).
  { destruct G4 as (_ & _ & G4). rewrite G4 by lia. eapply extends_nth'; eauto. }
  destruct (put_storage_upd st4 t (StList (cs ++ [CMap (hlen st2)])) _ Et) as (st5 & E5 & V5 & L5 & N5).
  exists st5, (hlen st2). split; [|split; [|split; [|split; [|lia]]]].
  - unfold diff_entry. rewrite (bind_ok _ _ _ _ _ E1), (bind_ok _ _ _ _ _ E2), Em, (bind_ok _ _ _ _ _ E3), (bind_ok _ _ _ _ _ E4), (bind_get_list _ _ _ _ Et). exact E5.
  - rewrite N5, Nat.eqb_refl. reflexivity.
  - destruct G4 as (V4 & _ & G4). split; [rewrite V5, V4; apply X13|]. split; [lia|]. intros s Hs Ne. rewrite N5. destruct (Nat.eqb_spec s t); [congruence|].
    rewrite G4 by lia. apply extends_nth; auto.
  - intros NT. assert (Keep : forall s y, nth_error (h_heap st3) s = Some y -> s <> hlen st2 -> s <> t -> nth_error (h_heap st5) s = Some y).
    { intros s y Y Na Nb. rewrite N5. destruct (Nat.eqb_spec s t); [congruence|]. destruct G4 as (_ & _ & G4). rewrite G4; auto. unfold hlen. apply nth_error_Some. congruence. }
    assert (Keep0 : forall s y, nth_error (h_heap st) s = Some y -> s <> t -> nth_error (h_heap st5) s = Some y).
    { intros s y Y Nt. apply Keep; auto; [eapply extends_nth'; eauto|]. assert (s < hlen st)%nat by (unfold hlen; apply nth_error_Some; congruence). lia. }
    unfold entryv. apply owns_VMap. exists (m0 ++ match o with Some c => [(s2b "value", c)] | None => [] end), ([] :: [] :: match o with Some _ => [Fx] | None => [] end).
    split; [rewrite N5; destruct (Nat.eqb_spec (hlen st2) t); [lia|exact N4]|].
    split; [destruct o, x; try (exfalso; exact Ox); cbn; rewrite ?app_nil_r; congruence|]. split; [apply entry_sorted|].
    split; [destruct o, x; try (exfalso; exact Ox); reflexivity|].
    assert (A1 : nth_error (h_heap st5) (hlen st) = Some (StStr op)).
    { apply Keep; try lia. eapply extends_nth'; [exact X3|]. eapply extends_nth'; [exact X2|exact N1]. }
    assert (A2 : nth_error (h_heap st5) (hlen st1) = Some (StStr (form_pointer p))).
    { apply Keep; try lia. eapply extends_nth'; [exact X3|exact N2]. }
    destruct o as [c|], x as [v|]; try (exfalso; exact Ox); cbn; (split; [split; [exact A1|reflexivity]|]); (split; [split; [exact A2|reflexivity]|]); auto. split; auto.
    apply owns_frame with (h := h_heap st); auto.
    + intros s y Y C. apply Keep0; auto. intros ->. rewrite E in Y. injection Y as <-. apply C. exact I.
    + intros s J. destruct (owns_In _ _ _ _ _ Ox J) as (y & Y & _). rewrite Y. apply Keep0; auto. intros ->. auto.
Qed.

(** ** The storages of the children *)
Lemma owns_det h v : forall c F F', owns h v c F -> owns h v c F' -> F = F'.
Proof.
  assert (L : forall vs cs Fs Fs', Forall (fun v => forall c F F', owns h v c F -> owns h v c F' -> F = F') vs -> owns_list h vs cs Fs -> owns_list h vs cs Fs' -> Fs = Fs').
  { induction vs as [|v0 vs IH]; intros [|c cs] [|f Fs] [|f' Fs']; cbn [owns_list]; try tauto. intros G [A B] [A' B']. inversion G; subst. f_equal; eauto. }
  induction v as [| | | | | |vs IH|vm IH|] using value_ind'; intros c F F' O O'; destruct c; cbn [owns] in O, O'; try tauto;
    try (destruct O as [_ O], O' as [_ O']; congruence); try congruence.
  - apply (owns_VList h) in O. apply (owns_VList h) in O'. destruct O as (cs & Fs & E & -> & O), O' as (cs' & Fs' & E' & -> & O').
    assert (cs' = cs) by congruence. subst. f_equal. f_equal. eauto.
  - apply (owns_VMap h) in O. apply (owns_VMap h) in O'. destruct O as (cs & Fs & E & -> & _ & _ & O), O' as (cs' & Fs' & E' & -> & _ & _ & O').
    assert (cs' = cs) by congruence. subst. f_equal. f_equal. eapply (L (List.map snd vm)); eauto. apply Forall_forall. rewrite Forall_forall in IH.
    intros y J. apply in_map_iff in J. destruct J as (kv & <- & J). apply IH, J.
Qed.
(** The part of the footprint that belongs to the element. *)
Definition part (h : list storage) (v : value) (c : cell) (e : pelem) (f : list nat) : Prop :=
  exists s x cw w, vchild v e = Some w /\ base c e = Some s /\ nth_error h s = Some x /\ slot_get x e = Some cw /\ owns h w cw f.
Lemma concat_nth (Fs : list (list nat)) i f : nth_error Fs i = Some f -> forall s, In s f -> In s (List.concat Fs).
Proof. intros E s J. apply in_concat. exists f. split; auto. eapply nth_error_In; eauto. Qed.
Lemma nodup_nth (Fs : list (list nat)) : NoDup (List.concat Fs) -> forall i j f g, i <> j -> nth_error Fs i = Some f -> nth_error Fs j = Some g -> apart f g.
Proof.
  induction Fs as [|a Fs IH]; intros N i j f g Ne A B; [destruct i; discriminate|]. cbn [List.concat] in N. apply nodup_app in N. destruct N as (N1 & N2 & N3).
  destruct i as [|i], j as [|j]; cbn [nth_error] in *; [lia| | |].
  - injection A as <-. intros s J J'. apply (N3 s J). eapply concat_nth; eauto.
  - injection B as <-. intros s J J'. apply (N3 s J'). eapply concat_nth; eauto.
  - apply (IH N2 i j); auto.
Qed.
Lemma owns_list_nth h vs cs Fs i v c : owns_list h vs cs Fs -> nth_error vs i = Some v -> nth_error cs i = Some c -> exists f, nth_error Fs i = Some f /\ owns h v c f.
Proof.
  revert cs Fs i; induction vs as [|v0 vs IH]; intros [|c0 cs] [|f Fs] [|i]; cbn [owns_list nth_error]; try tauto; try discriminate.
  - intros [A _] E1 E2. injection E1 as ->. injection E2 as ->. eauto.
  - intros [_ B]. apply IH; auto.
Qed.
Lemma mget_nth {A} k (m : list (bytes * A)) x : mget k m = Some x -> exists i, nth_error m i = Some (k, x).
Proof. intros G. apply mget_In in G. apply In_nth_error in G. exact G. Qed.
Definition position (v : value) (e : pelem) (i : nat) : Prop :=
  match v, e with VList _, PIdx j => i = N.to_nat j | VMap m, PKey k => exists w, nth_error m i = Some (k, w) | _, _ => False end.
Lemma part_nth h v c F : owns h v c F -> forall e0 f0, part h v c e0 f0 -> exists s Gs, F = s :: List.concat Gs /\
  forall e f, part h v c e f -> exists i, nth_error Gs i = Some f /\ position v e i.
Proof.
  intros O e0 f0 (s0 & x0 & c0 & w0 & V0 & _). destruct v; try (destruct e0; discriminate); clear V0.
  - destruct c; try (exfalso; exact O). apply owns_VList in O. destruct O as (cs & Gs & E & -> & O). exists s, Gs. split; [reflexivity|].
    intros e f (s1 & x & cw & w & V & B & X & G & Ow). destruct e as [|i]; [discriminate|]. injection B as <-.
    assert (x = StList cs) by congruence. subst x. cbn in V, G. exists (N.to_nat i). split; [|reflexivity].
    destruct (owns_list_nth _ _ _ _ _ _ _ O V G) as (f' & E' & O'). rewrite E'. f_equal. eapply owns_det; eauto.
  - destruct c; try (exfalso; exact O). apply owns_VMap in O. destruct O as (cm & Gs & E & -> & S & K & O). exists s, Gs. split; [reflexivity|].
    intros e f (s1 & x & cw & w & V & B & X & G & Ow). destruct e as [k|]; [|discriminate]. injection B as <-.
    assert (x = StMap cm) by congruence. subst x. cbn in V, G. apply mget_nth in V. destruct V as [i V].
    assert (exists cw', nth_error cm i = Some (k, cw')) as [cw' W].
    { assert (H := f_equal (fun l => nth_error l i) K). cbn in H. rewrite !nth_error_map, V in H. cbn in H. destruct (nth_error cm i) as [[k' y]|]; [|discriminate].
      cbn in H. injection H as <-. eauto. }
    assert (cw' = cw).
    { assert (mget k cm = Some cw'); [|congruence]. apply In_mget; [eapply msorted_keys; eauto|eapply nth_error_In; eauto]. }
    subst cw'. destruct (owns_list_nth h (List.map snd m) (List.map snd cm) Gs i w cw O) as (f' & E' & O').
    { rewrite nth_error_map, V. reflexivity. } { rewrite nth_error_map, W. reflexivity. }
    exists i. split; [|cbn; eauto]. rewrite E'. f_equal. eapply owns_det; eauto.
Qed.
Lemma part_in h v c F e f : owns h v c F -> part h v c e f -> forall s, In s f -> In s F.
Proof.
  intros O Pa s J. destruct (part_nth _ _ _ _ O _ _ Pa) as (s0 & Gs & -> & H). destruct (H _ _ Pa) as (i & E & _). right. eapply concat_nth; eauto.
Qed.
Lemma part_apart h v c F e e' f g : owns h v c F -> NoDup F -> e <> e' -> part h v c e f -> part h v c e' g -> apart f g.
Proof.
  intros O N Ne P1 P2. destruct (part_nth _ _ _ _ O _ _ P1) as (s & Gs & -> & H). destruct (H _ _ P1) as (i & A & Q), (H _ _ P2) as (j & A' & Q').
  destruct (proj1 (NoDup_cons_iff _ _) N) as [_ N']. apply (nodup_nth Gs N' i j); auto. intros <-. apply Ne.
  destruct v, e, e'; cbn in Q, Q'; try (exfalso; assumption).
  - f_equal. lia.
  - destruct Q as [w Q], Q' as [w' Q']. congruence.
Qed.

(** ** The references that are compared *)
Definition ref_is (st : hstate) (t : nat) (r : vref) (o : option value) (F : list nat) : Prop :=
  match o with
  | Some v => exists l c, r = RRef l /\ tree st l v c F /\ outside l [t] /\ ~ In t F
  | None => exists_ref r st = (Ok false, st) /\ F = []
  end.
Lemma type_owned h v c F : owns h v c F -> type_of (num_view c) = type_of v.
Proof. destruct v, c; cbn [owns]; intros O; try (exfalso; exact O); reflexivity. Qed.
Lemma vtype_eqb_eq a b : vtype_eqb a b = true <-> a = b.
Proof. destruct a, b; cbn; split; congruence. Qed.
Lemma child_ref st t l v c F e cs : tree st l v c F -> outside l [t] -> ~ In t F -> kind_for e v -> nth_error (h_heap st) t = Some (StList cs) ->
  exists r f, at_elem (RRef l) e st = (Ok r, st) /\ ref_is st t r (vchild v e) f /\ (forall w, vchild v e = Some w -> part (h_heap st) v c e f).
Proof.
  intros T Ot NT K E. rewrite at_rref. destruct (vchild v e) as [w|] eqn:W.
  - destruct (descend_slot _ _ _ _ _ _ _ T W) as (s & x & cw & Fw & B & X & G & Is & NIs & Tw & Inc & Og & _).
    exists (RRef (slot s e)), Fw. split; [eapply get_ref_slot; eauto; apply T|]. split.
    + exists (slot s e), cw. split; [reflexivity|]. split; [exact Tw|]. split; [|auto]. apply Og; auto. intros u J [<-|[]]. auto.
    + intros w' _. exists s, x, cw, w. repeat split; auto. apply Tw.
  - exists (RProxy l [e]), []. assert (T' := T). destruct T' as [P O ND OL LS].
    assert (exists s, base c e = Some s) as [s B].
    { destruct e; destruct K as [? ->]; destruct c; try (exfalso; exact O); cbn; eauto. }
    destruct (owns_slot _ _ _ _ e s O B) as (x & A & Fw & D & X & _ & _ & _ & H & _). rewrite W in H. destruct H as [G _].
    split; [|split; [|discriminate]].
    + eapply get_ref_noslot; eauto. destruct e; destruct K as [? ->]; destruct c; try (exfalso; exact O); cbn in B; injection B as <-.
      * apply owns_VMap in O. destruct O as (cs' & Gs & X' & _). rewrite X in X'. injection X' as ->. exact I.
      * apply owns_VList in O. destruct O as (cs' & Gs & X' & _). rewrite X in X'. injection X' as ->. exact I.
    + split; [|reflexivity]. assert (H := get_elem_none st l v c F e P O W).
      unfold exists_ref. cbn [resolve_check]. assert (H2 : get_path [e] l false st = (Ok None, st)).
      { cbn [get_path]. rewrite (bind_ok _ _ _ _ _ H). reflexivity. }
      rewrite (bind_ok _ _ _ _ _ H2). reflexivity.
Qed.

(** ** The entries *)
Fixpoint dloop (f : nat) (src dst : vref) (t : nat) (p : path) (es : list pelem) : M unit :=
  match es with
  | [] => ret tt
  | e :: es' => (let* x := at_elem src e in let* y := at_elem dst e in diff_ref f x y t (p ++ [e]));; dloop f src dst t p es'
  end.
Definition makes (st : hstate) (t : nat) (cs : list cell) (m : M unit) (ds : list (path * dop)) (D : nat -> Prop) : Prop :=
  exists st' new Fs, m st = (Ok tt, st') /\ nth_error (h_heap st') t = Some (StList (cs ++ new)) /\ grows t st st' /\
    owns_list (h_heap st') (List.map entry ds) new Fs /\ NoDup (List.concat Fs) /\ ~ In t (List.concat Fs) /\
    forall s, In s (List.concat Fs) -> (hlen st <= s < hlen st')%nat \/ D s.
Definition enough (n : nat) (a : option value) : Prop := match a with Some v => (S (vdepth v) <= n)%nat | None => (1 <= n)%nat end.
Definition fits (a : option value) : Prop := match a with Some v => lists_fit v | None => True end.
Definition bare (a : option value) : Prop := match a with Some v => noblob v | None => True end.
Lemma makes_nil st t cs D : nth_error (h_heap st) t = Some (StList cs) -> makes st t cs (ret tt) [] D.
Proof.
  intros E. exists st, [], []. rewrite app_nil_r. split; [reflexivity|]. split; [exact E|]. split; [apply grows_refl|]. split; [exact I|]. split; [constructor|].
  split; [intros []|intros s []].
Qed.
Lemma makes_one st t cs op p o x Fx d : nth_error (h_heap st) t = Some (StList cs) ->
  match o, x with Some c, Some v => owns (h_heap st) v c Fx | None, None => Fx = [] | _, _ => False end -> NoDup Fx -> ~ In t Fx ->
  entry (p, d) = entryv op p x -> makes st t cs (diff_entry t op p o) [(p, d)] (fun s => In s Fx).
Proof.
  intros E Ox ND NT En. assert (Lt : (t < hlen st)%nat) by (unfold hlen; apply nth_error_Some; congruence).
  destruct (diff_entry_sem st t cs op p o x Fx E Ox) as (st' & sm & R & E' & G & Ow & B).
  assert (Low : forall s, In s Fx -> (s < hlen st)%nat).
  { intros s J. destruct o, x; try (exfalso; exact Ox); [|rewrite Ox in J; destruct J]. unfold hlen. eapply owns_lt; eauto. }
  exists st', [CMap sm], [sm :: Fx]. split; [exact R|]. split; [exact E'|]. split; [exact G|]. cbn [List.map List.concat]. rewrite app_nil_r, En.
  split; [split; [auto|exact I]|]. split; [constructor; auto; intros J; apply Low in J; lia|].
  split; [intros [<-|J]; [lia|auto]|]. intros s [<-|J]; [left; lia|auto].
Qed.
Lemma makes_app st t cs m1 m2 d1 d2 (D1 D2 D : nat -> Prop) : makes st t cs m1 d1 D1 ->
  (forall st' new, m1 st = (Ok tt, st') -> grows t st st' -> nth_error (h_heap st') t = Some (StList (cs ++ new)) -> makes st' t (cs ++ new) m2 d2 D2) ->
  (t < hlen st)%nat -> (forall s, D1 s -> D s) -> (forall s, D2 s -> D s) -> (forall s, D1 s -> ~ D2 s) -> (forall s, D s -> (s < hlen st)%nat) ->
  makes st t cs (m1;; m2) (d1 ++ d2) D.
Proof.
  intros (st1 & n1 & F1 & R1 & E1 & G1 & O1 & N1 & T1 & B1) H Lt S1 S2 Ap Low.
  destruct (H st1 n1 R1 G1 E1) as (st2 & n2 & F2 & R2 & E2 & G2 & O2 & N2 & T2 & B2). assert (L1 := proj1 (proj2 G1)). assert (L2 := proj1 (proj2 G2)).
  exists st2, (n1 ++ n2), (F1 ++ F2). split; [rewrite (bind_ok _ _ _ _ _ R1); exact R2|]. rewrite app_assoc. split; [exact E2|]. split; [eapply grows_trans; eauto|].
  rewrite map_app, concat_app. split; [apply owns_list_app; auto; eapply grows_owns_list; eauto|].
  split; [|split].
  - apply nodup_app. split; [auto|]. split; [auto|]. intros s J J'. destruct (B1 s J) as [K|K], (B2 s J') as [K'|K'].
    + lia.
    + apply S2, Low in K'. lia.
    + apply S1, Low in K. lia.
    + eapply Ap; eauto.
  - rewrite in_app_iff. tauto.
  - intros s J. apply in_app_iff in J. destruct J as [J|J].
    + destruct (B1 s J) as [K|K]; [left; lia|auto].
    + destruct (B2 s J) as [K|K]; [left; lia|auto].
Qed.
Lemma makes_weak st t cs m ds (D D' : nat -> Prop) : makes st t cs m ds D -> (forall s, D s -> D' s) -> makes st t cs m ds D'.
Proof.
  intros (st' & n & F & R & E & G & O & N & T & B) S. exists st', n, F. repeat (split; [assumption|]). intros s J. destruct (B s J); auto.
Qed.
Lemma makes_eq st t cs m m' ds D : m st = m' st -> makes st t cs m' ds D -> makes st t cs m ds D.
Proof. intros E (st' & n & F & R & H). exists st', n, F. split; [congruence|exact H]. Qed.
Lemma part_grows st st' t cs y c F e f : grows t st st' -> nth_error (h_heap st) t = Some (StList cs) -> owns (h_heap st) y c F -> ~ In t F ->
  part (h_heap st') y c e f -> part (h_heap st) y c e f.
Proof.
  intros G E O NT (s & x & cw & w & V & B & X & Sg & Ow). destruct (owns_slot _ _ _ _ e s O B) as (x0 & A & Fw & D & X0 & EF & _ & _ & H & _).
  rewrite V in H. destruct H as (cw0 & Sg0 & Ow0). assert (Is : In s F) by (rewrite EF; left; reflexivity).
  assert (X' : nth_error (h_heap st') s = nth_error (h_heap st) s).
  { apply G; [unfold hlen; apply nth_error_Some; congruence|]. intros ->. auto. }
  rewrite X, X0 in X'. injection X' as ->. rewrite Sg in Sg0. injection Sg0 as ->.
  assert (owns (h_heap st') w cw0 Fw). { eapply grows_owns; eauto. intros J. apply NT. rewrite EF. right. rewrite !in_app_iff. auto. }
  rewrite (owns_det _ _ _ _ _ Ow H). exists s, x0, cw0, w. repeat split; auto.
Qed.
Lemma vdepths_In l v : In v l -> (vdepth v <= vdepths l)%nat.
Proof. induction l as [|a l IH]; [intros []|]. intros [->|J]; cbn [vdepths]; [lia|]. apply IH in J. lia. Qed.
Lemma vdepth_child v e w : vchild v e = Some w -> (vdepth w < vdepth v)%nat.
Proof.
  destruct v, e; try discriminate; cbn [vchild]; intros E.
  - rewrite vdepth_VList. apply nth_error_In, vdepths_In in E. lia.
  - rewrite vdepth_VMap. apply mget_In, (in_map snd), vdepths_In in E. cbn in E. lia.
Qed.
Lemma noblob_child v e w : noblob v -> vchild v e = Some w -> noblob w.
Proof.
  destruct v, e; try discriminate; cbn [vchild]; intros N E.
  - apply noblob_VList in N. eapply noblobs_In; eauto. eapply nth_error_In; eauto.
  - apply noblob_VMap in N. eapply noblobs_In; eauto. apply mget_In, (in_map snd) in E. exact E.
Qed.
Definition diffs (n : nat) (t : nat) : Prop := forall a b src dst st cs p Fa Fb,
  nth_error (h_heap st) t = Some (StList cs) -> ref_is st t src a Fa -> ref_is st t dst b Fb -> enough n a -> fits a -> fits b -> bare a ->
  makes st t cs (diff_ref n src dst t p) (vdiff n a b p) (fun s => In s Fb).
Lemma dloop_sem n t l1 x c1 F1 l2 y c2 F2 p : diffs n t -> (vdepth x <= n)%nat -> lists_fit x -> lists_fit y -> noblob x -> forall es st cs,
  NoDup es -> Forall (fun e => kind_for e x /\ kind_for e y) es -> nth_error (h_heap st) t = Some (StList cs) ->
  tree st l1 x c1 F1 -> outside l1 [t] -> ~ In t F1 -> tree st l2 y c2 F2 -> outside l2 [t] -> ~ In t F2 ->
  makes st t cs (dloop n (RRef l1) (RRef l2) t p es) (flat_map (fun e => vdiff n (vchild x e) (vchild y e) (p ++ [e])) es)
    (fun s => exists e f, In e es /\ part (h_heap st) y c2 e f /\ In s f).
Proof.
  intros IH Dx Lx Ly Nx. induction es as [|e es IHes]; intros st cs ND K E T1 O1 N1 T2 O2 N2; cbn [dloop flat_map]; [apply makes_nil, E|].
  destruct (proj1 (NoDup_cons_iff _ _) ND) as [Ne ND']. apply Forall_cons_iff in K. destruct K as [[K1 K2] K].
  destruct (child_ref st t l1 x c1 F1 e cs T1 O1 N1 K1 E) as (r1 & f1 & A1 & R1 & _). destruct (child_ref st t l2 y c2 F2 e cs T2 O2 N2 K2 E) as (r2 & f2 & A2 & R2 & P2).
  apply makes_app with (D1 := fun s => In s f2) (D2 := fun s => exists e f, In e es /\ part (h_heap st) y c2 e f /\ In s f).
  - apply makes_eq with (m' := diff_ref n r1 r2 t (p ++ [e])); [rewrite (bind_ok _ _ _ _ _ A1), (bind_ok _ _ _ _ _ A2); reflexivity|].
    apply (IH (vchild x e) (vchild y e) r1 r2 st cs (p ++ [e]) f1 f2); auto.
    + destruct (vchild x e) as [w|] eqn:W; cbn; [assert (Q := vdepth_child _ _ _ W)|assert (Q := vdepth_pos x)]; lia.
    + destruct (vchild x e) as [w|] eqn:W; cbn; auto. exact (lists_fit_child x e w Lx W).
    + destruct (vchild y e) as [w|] eqn:W; cbn; auto. exact (lists_fit_child y e w Ly W).
    + destruct (vchild x e) as [w|] eqn:W; cbn; auto. exact (noblob_child x e w Nx W).
  - intros st' new Rn G E'. eapply makes_weak; [apply IHes; auto; eapply grows_tree; eauto|]. cbn beta. intros s (e1 & f & I1 & Pf & J). exists e1, f.
    split; auto. split; auto. eapply part_grows; eauto. apply T2.
  - unfold hlen. apply nth_error_Some. congruence.
  - intros s J. exists e, f2. destruct (vchild y e) as [w|] eqn:W.
    + split; [left; reflexivity|]. split; [eapply P2; reflexivity|exact J].
    + destruct R2 as [_ R2]. rewrite R2 in J. destruct J.
  - intros s (e1 & f & I1 & H). exists e1, f. split; [right; auto|auto].
  - intros s J (e1 & f & I1 & Pf & Jf). destruct (vchild y e) as [w|] eqn:W; [|destruct R2 as [_ R2]; rewrite R2 in J; destruct J].
    assert (Ap := part_apart (h_heap st) y c2 F2 e e1 f2 f (tr_owns _ _ _ _ _ T2) (tr_nodup _ _ _ _ _ T2)). apply (Ap (fun q => Ne ltac:(subst; exact I1)) (P2 _ eq_refl) Pf s J Jf).
  - intros s (e1 & f & I1 & Pf & Jf). unfold hlen. eapply owns_lt; [apply T2|]. eapply part_in; [apply T2|exact Pf|exact Jf].
Qed.

Lemma list_loop f src dst t p n : forall i st,
  (fix go n i := match n with
                 | O => ret tt
                 | S n' => (let* x := at_elem src (PIdx i) in let* y := at_elem dst (PIdx i) in diff_ref f x y t (p ++ [PIdx i]));; go n' (i + 1)
                 end) n i st = dloop f src dst t p (List.map (fun j => PIdx (i + N.of_nat j)) (seq 0 n)) st.
Proof.
  induction n as [|n IH]; intros i st; [reflexivity|]. cbn [seq List.map dloop]. rewrite N.add_0_r. apply bind_ext. intros [] st1. rewrite IH. rewrite <- seq_shift, map_map.
  replace (List.map (fun j => PIdx (i + 1 + N.of_nat j)) (seq 0 n)) with (List.map (fun j => PIdx (i + N.of_nat (S j))) (seq 0 n)); [reflexivity|].
  apply map_ext. intros j. f_equal. lia.
Qed.
Lemma map_loop f src dst t p ks : forall st,
  (fix go ks := match ks with
                | [] => ret tt
                | k :: ks' => (let* x := at_elem src (PKey k) in let* y := at_elem dst (PKey k) in diff_ref f x y t (p ++ [PKey k]));; go ks'
                end) ks st = dloop f src dst t p (List.map PKey ks) st.
Proof. induction ks as [|k ks IH]; intros st; [reflexivity|]. cbn [List.map dloop]. apply bind_ext. intros [] st1. apply IH. Qed.
Lemma mkeys_mset_in {A} k k' (x : A) m : In k' (mkeys (mset k x m)) <-> k' = k \/ In k' (mkeys m).
Proof.
  induction m as [|[a b] m IH]; cbn [mset mkeys List.map In fst]; [intuition congruence|].
  destruct (bcmp k a) eqn:C; cbn [mkeys List.map In fst].
  - apply bcmp_eq in C. subst. intuition congruence.
  - intuition congruence.
  - unfold mkeys in IH. rewrite IH. intuition congruence.
Qed.
Lemma fold_keys ks : forall (m : list (bytes * unit)), msorted m ->
  msorted (fold_left (fun m k => mset k tt m) ks m) /\
  forall k, In k (mkeys (fold_left (fun m k => mset k tt m) ks m)) <-> In k ks \/ In k (mkeys m).
Proof.
  induction ks as [|a ks IH]; intros m S; cbn [fold_left]; [split; auto; intros k; cbn; tauto|].
  destruct (IH (mset a tt m) (msorted_mset _ _ _ S)) as [A B]. split; auto. intros k. rewrite B, mkeys_mset_in. cbn. intuition congruence.
Qed.
Lemma sorted_nodup {A} (m : list (bytes * A)) : msorted m -> NoDup (List.map fst m).
Proof.
  induction m as [|[k x] m IH]; cbn [msorted List.map fst]; [constructor|]. intros [H S]. constructor; auto.
  intros J. apply (bcmp_lt_neq k k); auto.
Qed.
Lemma vkeys_spec (m1 m2 : list (bytes * value)) : NoDup (vkeys m1 m2) /\ forall k, In k (vkeys m1 m2) <-> In k (mkeys m1) \/ In k (mkeys m2).
Proof.
  unfold vkeys. destruct (fold_keys (mkeys m2) [] I) as [S A]. destruct (fold_keys (mkeys m1) _ S) as [S2 B]. split; [apply sorted_nodup, S2|].
  intros k. unfold mkeys in B at 1. rewrite B, A. cbn. tauto.
Qed.

Lemma small32 n : n < 2^32 -> wrap32 n = n.
Proof. apply N.mod_small. Qed.
Lemma firstn_nth_lt {A} n : forall (l : list A) i, (i < n)%nat -> nth_error (firstn n l) i = nth_error l i.
Proof. induction n as [|n IH]; intros l i H; [lia|]. destruct l as [|a l], i; cbn; auto. apply IH. lia. Qed.
Lemma elems_facts x y : vsorted x -> vsorted y -> lists_fit x -> lists_fit y -> type_of x = type_of y -> NoDup (elems_of x y) /\ Forall (fun e => kind_for e x /\ kind_for e y) (elems_of x y).
Proof.
  intros Sx Sy Lx Ly Ty. destruct x, y; try discriminate; cbn [elems_of]; try (split; constructor; fail).
  all: split.
  - apply FinFun.Injective_map_NoDup; [|apply seq_NoDup]. intros a b E. injection E as E. lia.
  - apply Forall_forall. intros e J. apply in_map_iff in J. destruct J as (i & <- & _). cbn. eauto.
  - apply FinFun.Injective_map_NoDup; [|apply vkeys_spec]. intros a b E. injection E as E. exact E.
  - apply Forall_forall. intros e J. apply in_map_iff in J. destruct J as (i & <- & _). cbn. eauto.
Qed.
Lemma diffs_all t n : diffs n t.
Proof.
  induction n as [|n IH]; intros a b src dst st cs p Fa Fb E Ra Rb En La Lb Ba; [destruct a; cbn in En; lia|]. cbn [diff_ref vdiff].
  assert (Lt : (t < hlen st)%nat) by (unfold hlen; apply nth_error_Some; congruence).
  destruct b as [y|].
  2:{ destruct Rb as [Rb ->]. apply makes_eq with (m' := diff_entry t (s2b "remove") p None); [rewrite (bind_ok _ _ _ _ _ Rb); reflexivity|].
      eapply makes_one with (x := None); eauto; try (intros []; fail). constructor. }
  destruct Rb as (l2 & c2 & -> & T2 & O2 & N2). assert (Rd := read_rref _ _ _ (tr_peek _ _ _ _ _ T2)).
  assert (Rep : makes st t cs (diff_entry t (s2b "replace") p (Some c2)) [(p, DRep y)] (fun s => In s Fb)).
  { apply makes_one with (x := Some y); auto; apply T2. }
  destruct a as [x|].
  2:{ destruct Ra as [Ra ->]. apply makes_eq with (m' := diff_entry t (s2b "add") p (Some c2)).
      { rewrite (bind_ok _ _ _ _ _ (exists_rref l2 st)). cbn [negb]. rewrite (bind_ok _ _ _ _ _ Ra). cbn [negb]. rewrite (bind_ok _ _ _ _ _ Rd). reflexivity. }
      apply makes_one with (x := Some y); auto; apply T2. }
  destruct Ra as (l1 & c1 & -> & T1 & O1 & N1). assert (Rs := read_rref _ _ _ (tr_peek _ _ _ _ _ T1)).
  assert (Ty : type_eqb c1 c2 = vtype_eqb (type_of x) (type_of y)).
  { unfold type_eqb. rewrite (type_owned _ _ _ _ (tr_owns _ _ _ _ _ T1)), (type_owned _ _ _ _ (tr_owns _ _ _ _ _ T2)). reflexivity. }
  cbn [enough fits bare] in *. assert (V := vdepth_pos x).
  eapply makes_eq.
  { rewrite (bind_ok _ _ _ _ _ (exists_rref l2 st)). cbn [negb]. rewrite (bind_ok _ _ _ _ _ (exists_rref l1 st)). cbn [negb].
    rewrite (bind_ok _ _ _ _ _ Rs), (bind_ok _ _ _ _ _ Rd), Ty. reflexivity. }
  destruct (vtype_eqb (type_of x) (type_of y)) eqn:TE; [|exact Rep]. apply vtype_eqb_eq in TE.
  assert (C := compare_owns st x c1 Fa y c2 Fb (tr_owns _ _ _ _ _ T1) (tr_nodup _ _ _ _ _ T1) (tr_owns _ _ _ _ _ T2) Ba).
  destruct (vcompare_ok x Ba y) as [z Z]. rewrite Z in C |- *. eapply makes_eq; [rewrite (bind_ok _ _ _ _ _ C); reflexivity|].
  destruct (z =? 0)%Z; [apply makes_nil, E|].
  assert (Sx := owns_sorted _ _ _ _ (tr_owns _ _ _ _ _ T1)). assert (Sy := owns_sorted _ _ _ _ (tr_owns _ _ _ _ _ T2)).
  destruct (elems_facts x y Sx Sy La Lb TE) as [ND K].
  assert (Loop := dloop_sem n t l1 x c1 Fa l2 y c2 Fb p IH ltac:(lia) La Lb Ba (elems_of x y) st cs ND K E T1 O1 N1 T2 O2 N2).
  assert (Loop' : makes st t cs (dloop n (RRef l1) (RRef l2) t p (elems_of x y))
    (flat_map (fun e => vdiff n (vchild x e) (vchild y e) (p ++ [e])) (elems_of x y)) (fun s => In s Fb)).
  { eapply makes_weak; [exact Loop|]. intros s (e & f & _ & Pf & J). eapply part_in; [apply T2|exact Pf|exact J]. }
  clear Loop. assert (Ox := tr_owns _ _ _ _ _ T1). assert (Oy := tr_owns _ _ _ _ _ T2).
  destruct x, y; try discriminate TE; destruct c1; try (exfalso; exact Ox); destruct c2; try (exfalso; exact Oy); cbn [container_value]; try exact Rep.
  - apply owns_VList in Ox. apply owns_VList in Oy. destruct Ox as (cs1 & G1 & X1 & _ & Ol1), Oy as (cs2 & G2 & X2 & _ & Ol2).
    apply makes_eq with (m' := dloop n (RRef l1) (RRef l2) t p (elems_of (VList l) (VList l0))); [|exact Loop'].
    rewrite (bind_get_list _ _ _ _ X1), (bind_get_list _ _ _ _ X2), list_loop. cbn [elems_of].
    assert (Q1 := La [] l eq_refl). assert (Q2 := Lb [] l0 eq_refl).
    assert (Z1 := owns_list_length _ _ _ _ Ol1). assert (Z2 := owns_list_length _ _ _ _ Ol2).
    unfold lsize. rewrite !small32 by lia. rewrite Z1, Z2.
    replace (N.to_nat (N.max (N.of_nat (List.length l)) (N.of_nat (List.length l0)))) with (Nat.max (List.length l) (List.length l0)) by lia. reflexivity.
  - apply owns_VMap in Ox. apply owns_VMap in Oy. destruct Ox as (cm1 & G1 & X1 & _ & _ & K1 & _), Oy as (cm2 & G2 & X2 & _ & _ & K2 & _).
    apply makes_eq with (m' := dloop n (RRef l1) (RRef l2) t p (elems_of (VMap m) (VMap m0))); [|exact Loop'].
    rewrite (bind_get_map _ _ _ _ X1), (bind_get_map _ _ _ _ X2), map_loop. cbn [elems_of]. unfold key_union, vkeys, mkeys. rewrite K1, K2. reflexivity.
Qed.
(** JSONDiff makes the difference, in a list of its own that shares storages with the second document only. *)
Lemma json_diff_sem st l1 x c1 F1 l2 y c2 F2 fuel : tree st l1 x c1 F1 -> tree st l2 y c2 F2 -> lists_fit x -> lists_fit y -> noblob x -> (vdepth x < fuel)%nat ->
  exists st' t Fs, json_diff fuel l1 l2 st = (Ok (CList t), st') /\ extends st st' /\
    owns (h_heap st') (VList (List.map entry (vdiff fuel (Some x) (Some y) []))) (CList t) (t :: List.concat Fs) /\ NoDup (t :: List.concat Fs) /\
    forall s, In s (t :: List.concat Fs) -> (hlen st <= s)%nat \/ In s F2.
Proof.
  intros T1 T2 L1 L2 Nx Fu. unfold json_diff. destruct (alloc_ok (StList []) st) as (st1 & E1 & X1 & N1 & Len). rewrite (bind_ok _ _ _ _ _ E1).
  assert (Fresh : forall l v c F, tree st l v c F -> outside l [hlen st] /\ ~ In (hlen st) F).
  { intros l v c F T. split; [|intros J; apply (owns_lt _ _ _ _ _ (tr_owns _ _ _ _ _ T)) in J; unfold hlen in J; lia].
    assert (P := tr_peek _ _ _ _ _ T). destruct l as [i|s i|s k]; cbn [outside peek] in *; auto;
      (destruct (nth_error (h_heap st) s) eqn:Q; [|discriminate]); intros [J|[]]; subst s; assert (B : nth_error (h_heap st) (hlen st) <> None) by congruence; apply nth_error_Some in B; unfold hlen in B; lia. }
  destruct (Fresh _ _ _ _ T1) as [A1 B1], (Fresh _ _ _ _ T2) as [A2 B2].
  destruct (diffs_all (hlen st) fuel (Some x) (Some y) (RRef l1) (RRef l2) st1 [] [] F1 F2 N1) as (st2 & new & Fs & R & E2 & G & O & ND & NT & B); auto.
  - exists l1, c1. split; auto. split; [eapply extends_tree; eauto|auto].
  - exists l2, c2. split; auto. split; [eapply extends_tree; eauto|auto].
  - exists st2, (hlen st), Fs. rewrite (bind_ok _ _ _ _ _ R). split; [reflexivity|].
    split; [|split; [|split]].
    + split; [destruct G as (V & _); rewrite V; apply X1|]. exists (skipn (hlen st) (h_heap st2)). rewrite <- (firstn_skipn (hlen st) (h_heap st2)) at 1. f_equal.
      destruct G as (_ & L & G). apply nth_ext_eq. intros i. destruct (Nat.lt_ge_cases i (hlen st)) as [Q|Q].
      * rewrite firstn_nth_lt by exact Q. rewrite G by lia. apply extends_nth; auto.
      * rewrite (proj2 (nth_error_None _ _)); [symmetry; apply nth_error_None; exact Q|]. rewrite firstn_length. lia.
    + apply owns_VList. exists new, Fs. auto.
    + constructor; auto.
    + intros s [<-|J]; [left; lia|]. destruct (B s J); [left; lia|auto].
Qed.
