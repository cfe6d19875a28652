(** Recursive diff and update, on values. *)
From Verif Require Import Base CNum Float Value Blob Path PathProofs Numeric Convert Emit Uri P_Uri Heap HeapProofs HeapSpec SharingProofs ValueOps HeapTree
  HeapErase HeapTreeFacts Pointer PointerWalk PointerOps PointerCmp PointerSem PatchSem PointerText DiffSem P_Equal P_Pointer DiffRun Ext ExtSem.
Open Scope N_scope.

(** ** A loop over keys *)
Lemma fold_keys (f : value -> bytes -> value) (h : bytes -> option value -> option value) :
  (forall d k, msorted d -> exists d', f (VMap d) k = VMap d' /\ msorted d' /\ forall j, mget j d' = if beqb j k then h k (mget k d) else mget j d) ->
  forall ks d, NoDup ks -> msorted d -> exists d', fold_left f ks (VMap d) = VMap d' /\ msorted d' /\
    forall j, (In j ks -> mget j d' = h j (mget j d)) /\ (~ In j ks -> mget j d' = mget j d).
Proof.
  intros H. induction ks as [|k ks IH]; intros d N S.
  - exists d. split; [reflexivity|]. split; [exact S|]. intros j. split; [intros []|reflexivity].
  - inversion_clear N as [|? ? N1 N2]. destruct (H d k S) as (d1 & E1 & S1 & G1). destruct (IH d1 N2 S1) as (d2 & E2 & S2 & G2).
    exists d2. split; [cbn [fold_left]; rewrite E1; exact E2|]. split; [exact S2|]. intros j. destruct (G2 j) as [A B]. split.
    + intros [<-|J].
      * rewrite (B N1), G1, beqb_refl. reflexivity.
      * rewrite (A J), G1. destruct (beqb j k) eqn:Q; [|reflexivity]. apply beqb_eq in Q. subst. contradiction.
    + intros J. rewrite B by (intros J'; apply J; right; exact J'). rewrite G1. destruct (beqb j k) eqn:Q; [|reflexivity]. apply beqb_eq in Q. subst. destruct J. left. reflexivity.
Qed.
Lemma mkeys_none {A} k (m : list (bytes * A)) : ~ In k (mkeys m) <-> mget k m = None.
Proof.
  split.
  - intros N. destruct (mget k m) eqn:G; [|reflexivity]. destruct N. apply mget_In in G. apply (in_map fst) in G. exact G.
  - intros G J. destruct (mget_mkeys k m J). congruence.
Qed.
Lemma mkeys_nodup {A} (m : list (bytes * A)) : msorted m -> NoDup (mkeys m).
Proof.
  induction m as [|[k x] m IH]; intros S; [constructor|]. destruct S as [S1 S2]. constructor; [|apply IH, S2].
  intros J. assert (Z := S1 k J). rewrite bcmp_refl in Z. discriminate.
Qed.

(** ** RUpdate *)
Lemma vrupd_map n bm m : msorted bm -> msorted m -> exists r, vrupd (S n) (VMap bm) (VMap m) = VMap r /\ msorted r /\
  forall k, mget k r = match mget k m with Some w => Some (vrupd n (or_else (mget k bm) (VMap [])) w) | None => mget k bm end.
Proof.
  intros Sb Sm. destruct (fold_keys (fun b k => vput_key b k (vrupd n (or_else (vchild b (PKey k)) (VMap [])) (or_else (mget k m) VNull)))
    (fun k o => Some (vrupd n (or_else o (VMap [])) (or_else (mget k m) VNull)))) with (ks := mkeys m) (d := bm) as (r & E & S & G).
  - intros d k S. eexists. split; [reflexivity|]. cbn [vchild]. split; [apply msorted_mset, S|]. intros j. rewrite mget_mset by exact S. reflexivity.
  - apply mkeys_nodup, Sm.
  - exact Sb.
  - exists r. split; [exact E|]. split; [exact S|]. intros k. destruct (mget k m) as [w|] eqn:Gm.
    + rewrite (proj1 (G k)), Gm; [reflexivity|]. apply mget_In in Gm. apply (in_map fst) in Gm. exact Gm.
    + apply G, mkeys_none, Gm.
Qed.
Lemma vrupd_sorted n : forall b u, vsorted b -> vsorted u -> vsorted (vrupd n b u).
Proof.
  induction n as [|n IH]; intros b u Sb Su; [exact Sb|]. destruct u; try exact Su; [exact Sb|]. destruct b; try exact Su.
  apply vsorted_map in Sb as Tb. apply vsorted_map in Su as Tu. destruct (vrupd_map n m0 m) as (r & -> & Sr & G); try tauto. apply vsorted_map. split; [exact Sr|].
  apply Forall_forall. intros [k x] J. apply In_mget in J; [|exact Sr]. cbn [snd]. rewrite G in J. destruct (mget k m) as [w|] eqn:Gm.
  - injection J as <-. apply IH; [|exact (vsorted_child (VMap m) (PKey k) w Su Gm)]. destruct (mget k m0) as [z|] eqn:Gb; [exact (vsorted_child (VMap m0) (PKey k) z Sb Gb)|]. cbn. auto.
  - exact (vsorted_child (VMap m0) (PKey k) x Sb J).
Qed.

(** ** RDiff *)
Definition kept (d : value) : option value := match d with VNull | VMap [] => None | _ => Some d end.
Lemma vrd_map n bm m : msorted m -> exists r, vrd (S n) (VMap []) (VMap bm) (VMap m) = VMap r /\ msorted r /\
  forall k, mget k r =
    match mget k m with
    | None => None
    | Some w => match mget k bm with None => Some w | Some x => if veqb x w then None else kept (vrd n (VMap []) x w) end
    end.
Proof.
  intros Sm. destruct (fold_keys (fun d k => let w := or_else (mget k m) VNull in
     match mget k bm with None => vput_key d k w | Some x => vdrop (if veqb x w then d else vput_key d k (vrd n (VMap []) x w)) k end)
    (fun k o => let w := or_else (mget k m) VNull in
     match mget k bm with None => Some w | Some x => match (if veqb x w then o else Some (vrd n (VMap []) x w)) with Some d => kept d | None => None end end))
    with (ks := mkeys m) (d := @nil (bytes * value)) as (r & E & S & G).
  - intros d k S. set (w := or_else (mget k m) VNull). cbv zeta. destruct (mget k bm) as [x|].
    + assert (Dr : forall d0, msorted d0 -> exists d', vdrop (VMap d0) k = VMap d' /\ msorted d' /\ forall j, mget j d' = if beqb j k then (match mget k d0 with Some z => kept z | None => None end) else mget j d0).
      { intros d0 S0. cbn [vdrop]. destruct (mget k d0) as [z|] eqn:Gz.
        - assert (Same : kept z = Some z -> exists d', VMap d0 = VMap d' /\ msorted d' /\ forall j, mget j d' = if beqb j k then kept z else mget j d0).
          { intros K. exists d0. split; [reflexivity|]. split; [exact S0|]. intros j. destruct (beqb j k) eqn:Q; [|reflexivity]. apply beqb_eq in Q. subst. congruence. }
          assert (Del : kept z = None -> exists d', VMap (mdel k d0) = VMap d' /\ msorted d' /\ forall j, mget j d' = if beqb j k then kept z else mget j d0).
          { intros K. exists (mdel k d0). split; [reflexivity|]. split; [apply msorted_mdel, S0|]. intros j. rewrite mget_mdel by exact S0. rewrite K. reflexivity. }
          destruct z; try (apply Same; reflexivity); [apply Del; reflexivity|]. destruct m0; [apply Del|apply Same]; reflexivity.
        - exists d0. split; [reflexivity|]. split; [exact S0|]. intros j. destruct (beqb j k) eqn:Q; [|reflexivity]. apply beqb_eq in Q. subst. exact Gz. }
      destruct (veqb x w).
      * apply Dr, S.
      * cbn [vput_key vset_elem]. destruct (Dr (mset k (vrd n (VMap []) x w) d)) as (d' & E' & S' & G'); [apply msorted_mset, S|]. exists d'. split; [exact E'|]. split; [exact S'|].
        intros j. rewrite G'. rewrite !mget_mset by exact S. rewrite beqb_refl. destruct (beqb j k); reflexivity.
    + eexists. split; [reflexivity|]. split; [apply msorted_mset, S|]. intros j. rewrite mget_mset by exact S. reflexivity.
  - apply mkeys_nodup, Sm.
  - exact I.
  - exists r. split; [exact E|]. split; [exact S|]. intros k. destruct (mget k m) as [w|] eqn:Gm.
    + rewrite (proj1 (G k)); [|apply mget_In in Gm; apply (in_map fst) in Gm; exact Gm]. rewrite Gm. cbn [or_else mget]. destruct (mget k bm) as [x|]; [|reflexivity]. destruct (veqb x w); reflexivity.
    + apply G, mkeys_none, Gm.
Qed.
Lemma vdepth_map_le m D : msorted m -> (1 <= D)%nat -> (forall k x, mget k m = Some x -> (vdepth x < D)%nat) -> (vdepth (VMap m) <= D)%nat.
Proof.
  intros S P H. destruct D as [|D]; [lia|]. cbn [vdepth]. apply le_n_S. assert (H' : forall k x, In (k, x) m -> (vdepth x <= D)%nat).
  { intros k x J. apply In_mget in J; [|exact S]. apply H in J. lia. }
  clear -H'. induction m as [|[k x] m IH]; cbn; [lia|]. assert (A := H' k x (or_introl eq_refl)). assert (B := IH (fun k' y J => H' k' y (or_intror J))). lia.
Qed.
Lemma vrd_depth n : forall b y, vsorted y -> (vdepth (vrd n (VMap []) b y) <= vdepth y)%nat.
Proof.
  induction n as [|n IH]; intros b y S; [assert (Z := vdepth_pos y); cbn; lia|].
  assert (Leaf : (vdepth (if veqb b y then VMap [] else y) <= vdepth y)%nat) by (assert (Z := vdepth_pos y); destruct (veqb b y); cbn [vdepth fold_right]; lia).
  destruct y; try exact Leaf. destruct b; try (cbn [vrd]; lia). apply vsorted_map in S as Sm. destruct (vrd_map n m0 m) as (r & -> & Sr & G); [tauto|].
  apply vdepth_map_le; [exact Sr|apply vdepth_pos|]. intros k x Gx. rewrite G in Gx. destruct (mget k m) as [w|] eqn:Gm; [|discriminate].
  assert (Dw := vdepth_child (VMap m) (PKey k) w Gm). assert (Sw := vsorted_child (VMap m) (PKey k) w S Gm).
  destruct (mget k m0) as [z|]; [|injection Gx as <-; exact Dw]. destruct (veqb z w); [discriminate|]. assert (Z := IH z w Sw).
  assert (x = vrd n (VMap []) z w); [|subst; lia]. unfold kept in Gx. destruct (vrd n (VMap []) z w); try congruence. destruct m1; congruence.
Qed.
Lemma vrd_sorted n : forall b y, vsorted y -> vsorted (vrd n (VMap []) b y).
Proof.
  induction n as [|n IH]; intros b y S; [cbn; auto|].
  assert (Leaf : vsorted (if veqb b y then VMap [] else y)) by (destruct (veqb b y); [cbn; auto|exact S]).
  destruct y; try exact Leaf. destruct b; try exact S. apply vsorted_map in S as Sm. destruct (vrd_map n m0 m) as (r & -> & Sr & G); [tauto|].
  apply vsorted_map. split; [exact Sr|]. apply Forall_forall. intros [k x] J. apply In_mget in J; [|exact Sr]. cbn [snd]. rewrite G in J.
  destruct (mget k m) as [w|] eqn:Gm; [|discriminate]. assert (Sw := vsorted_child (VMap m) (PKey k) w S Gm).
  destruct (mget k m0) as [z|]; [|injection J as <-; exact Sw]. destruct (veqb z w); [discriminate|].
  assert (x = vrd n (VMap []) z w); [|subst; apply IH, Sw]. unfold kept in J. destruct (vrd n (VMap []) z w); try congruence. destruct m1; congruence.
Qed.

(** ** Updating with the difference *)
(** Fit to be added where nothing was: no null, neither itself nor as a member. *)
Inductive settles : value -> Prop :=
| set_value w : w <> VNull -> ~ is_map w -> settles w
| set_map m : (forall k w, mget k m = Some w -> settles w) -> settles (VMap m).
(** When updating with the difference leads to the second document. *)
Inductive updatable : value -> value -> Prop :=
| up_same b y : same b y -> updatable b y
| up_value b y : ~ is_map y -> y <> VNull -> updatable b y
| up_new_map b m : ~ is_map b -> m <> [] -> updatable b (VMap m)
| up_maps bm m : (forall k x, mget k bm = Some x -> mget k m <> None) ->
    (forall k x w, mget k bm = Some x -> mget k m = Some w -> updatable x w) ->
    (forall k w, mget k bm = None -> mget k m = Some w -> settles w) -> updatable (VMap bm) (VMap m).
Definition fine (v : value) : Prop := vok v /\ vsorted v /\ plain v.
Lemma fine_map m : fine (VMap m) -> msorted m.
Proof. intros (_ & S & _). apply vsorted_map in S. apply S. Qed.
Lemma fine_child v e w : fine v -> vchild v e = Some w -> fine w.
Proof. intros (A & B & C) E. split; [exact (vok_child v e w A E)|]. split; [exact (vsorted_child v e w B E)|exact (plain_child v e w C E)]. Qed.
Lemma veqb_same x y : fine x -> fine y -> (veqb x y = true <-> same x y).
Proof.
  intros (V & _ & P) (W & _ & Q). destruct (C18_equal_partial x y V W P Q) as (r & E & H). unfold v_eq in E. unfold veqb.
  destruct (vcompare x y) as [z| | | |]; try discriminate. cbn in E. injection E as E. rewrite E. exact H.
Qed.
Lemma same_map_inv a m : same a (VMap m) -> exists r, a = VMap r /\ forall k, osame (mget k r) (mget k m).
Proof.
  intros H. inversion H as [| | ? ? ? Na Nb| | |r m' F|]; subst; [discriminate|]. exists r. split; [reflexivity|]. clear H. intros k.
  induction F as [|[k1 x] [k2 y] r' m' [E S] _ IH]; [exact I|]. cbn [fst snd] in *. subst k2. cbn [mget]. destruct (beqb k k1); [exact S|exact IH].
Qed.
Lemma same_map_intro r m : msorted r -> msorted m -> (forall k, osame (mget k r) (mget k m)) -> same (VMap r) (VMap m).
Proof. intros A B H. constructor. apply same_maps; auto. Qed.
Lemma not_map_same v m : ~ is_map v -> ~ same v (VMap m).
Proof. intros N H. destruct (same_map_inv _ _ H) as (r & -> & _). apply N. eexists. reflexivity. Qed.
Lemma vrupd_value n b u : (1 <= n)%nat -> u <> VNull -> ~ (is_map b /\ is_map u) -> vrupd n b u = u.
Proof.
  intros P N M. destruct n as [|n]; [lia|]. destruct u; try reflexivity; [congruence|]. destruct b; try reflexivity. destruct M. split; eexists; reflexivity.
Qed.
Lemma same_null_l a : same VNull a -> a = VNull. Proof. intros H. inversion H; subst; [reflexivity|discriminate]. Qed.
Lemma same_null_r a : same a VNull -> a = VNull. Proof. intros H. inversion H; subst; [reflexivity|discriminate]. Qed.
Lemma settles_iff n : forall w, fine w -> (vdepth w <= n)%nat -> (same (vrupd n (VMap []) w) w <-> settles w).
Proof.
  induction n as [|n IH]; intros w Fw D; [assert (Z := vdepth_pos w); lia|].
  destruct (is_map_dec w) as [[m ->]|Nm].
  - assert (Sm : msorted m) by (apply fine_map, Fw). destruct (vrupd_map n [] m I Sm) as (r & -> & Sr & G). split.
    + intros H. apply same_map_inv in H. destruct H as (r' & E & O). injection E as <-. apply set_map. intros k w Gw. assert (Q := O k). rewrite G, Gw in Q. cbn [mget or_else osame] in Q.
      apply IH in Q; [exact Q|exact (fine_child (VMap m) (PKey k) w Fw Gw)|]. assert (Z := vdepth_child (VMap m) (PKey k) w Gw). lia.
    + intros H. inversion H as [? N1 N2|m' Hm]; subst; [destruct N2; eexists; reflexivity|]. apply same_map_intro; auto. intros k. rewrite G. destruct (mget k m) as [w|] eqn:Gw; [|exact I].
      cbn [mget or_else osame]. apply IH; [exact (fine_child (VMap m) (PKey k) w Fw Gw)| |exact (Hm k w Gw)]. assert (Z := vdepth_child (VMap m) (PKey k) w Gw). lia.
  - assert (Dec : w = VNull \/ w <> VNull) by (destruct w; auto; right; discriminate). destruct Dec as [->|Nn].
    + cbn [vrupd]. split; [intros H; apply same_null_r in H; discriminate|intros H; inversion H; congruence].
    + rewrite vrupd_value; [|lia|exact Nn|intros [_ M]; contradiction]. split; intros _; [apply set_value; auto|apply same_refl, Fw].
Qed.
(** What becomes of an entry that both have. *)
Definition refreshed (nu nd : nat) (x w : value) : value :=
  if veqb x w then x else match kept (vrd nd (VMap []) x w) with Some d => vrupd nu x d | None => x end.
Lemma kept_some d d' : kept d = Some d' -> d' = d /\ d <> VNull /\ d <> VMap [].
Proof. unfold kept. destruct d; try (intros E; injection E as <-; repeat split; discriminate); try discriminate. destruct m; [discriminate|]. intros E. injection E as <-. repeat split; discriminate. Qed.
Lemma kept_none d : kept d = None -> d = VNull \/ d = VMap [].
Proof. unfold kept. destruct d; try discriminate; auto. destruct m; [auto|discriminate]. Qed.
Lemma update_maps nu nd bm m : msorted bm -> msorted m -> (forall k w, mget k m = Some w -> mget k bm = None -> (vdepth w <= nu)%nat) -> exists r,
  vrupd (S nu) (VMap bm) (vrd (S nd) (VMap []) (VMap bm) (VMap m)) = VMap r /\ msorted r /\
  forall k, mget k r =
    match mget k m, mget k bm with
    | None, o => o
    | Some w, None => Some (vrupd nu (VMap []) w)
    | Some w, Some x => Some (refreshed nu nd x w)
    end.
Proof.
  intros Sb Sm H. destruct (vrd_map nd bm m Sm) as (d & -> & Sd & Gd). destruct (vrupd_map nu bm d Sb Sd) as (r & -> & Sr & Gr). exists r. split; [reflexivity|]. split; [exact Sr|].
  intros k. rewrite Gr, Gd. destruct (mget k m) as [w|] eqn:Gm; [|reflexivity]. destruct (mget k bm) as [x|] eqn:Gb; [|reflexivity]. cbn [or_else]. unfold refreshed.
  destruct (veqb x w); [reflexivity|]. destruct (kept (vrd nd (VMap []) x w)); reflexivity.
Qed.
Lemma refreshed_iff nd : forall nu x w, fine x -> fine w -> (vdepth w <= nd)%nat -> (vdepth w <= nu)%nat -> (same (refreshed nu nd x w) w <-> updatable x w).
Proof.
  induction nd as [|nd IH]; intros nu x w Fx Fw D Du; [assert (Z := vdepth_pos w); lia|]. unfold refreshed. assert (V := veqb_same x w Fx Fw).
  destruct (veqb x w) eqn:Vq; [split; [intros H; apply up_same, H|intros _; apply V; reflexivity]|].
  assert (Ns : ~ same x w) by (intros H; apply V in H; discriminate). destruct nu as [|nu]; [assert (Z := vdepth_pos w); lia|].
  destruct (is_map_dec w) as [[m ->]|Nm]; [destruct (is_map_dec x) as [[bm ->]|Nx]|].
  - assert (Sm : msorted m) by (apply fine_map, Fw). assert (Sb : msorted bm) by (apply fine_map, Fx).
    assert (E : (match kept (vrd (S nd) (VMap []) (VMap bm) (VMap m)) with Some d => vrupd (S nu) (VMap bm) d | None => VMap bm end) = vrupd (S nu) (VMap bm) (vrd (S nd) (VMap []) (VMap bm) (VMap m))).
    { destruct (kept _) as [d|] eqn:K; [apply kept_some in K; destruct K as (-> & _); reflexivity|]. apply kept_none in K. destruct (vrd_map nd bm m Sm) as (d & Ed & _). rewrite Ed in *. destruct K as [K|K]; [discriminate|]. rewrite K. reflexivity. }
    rewrite E. clear E. assert (Dp : forall k w, mget k m = Some w -> (vdepth w <= nd)%nat /\ (vdepth w <= nu)%nat).
    { intros k w G. assert (Z := vdepth_child (VMap m) (PKey k) w G). lia. }
    destruct (update_maps nu nd bm m Sb Sm) as (r & -> & Sr & G); [intros k w Gw _; apply (Dp k w Gw)|]. split.
    + intros H. apply same_map_inv in H. destruct H as (r' & E & O). injection E as <-. apply up_maps.
      * intros k x Gx Gm. assert (Q := O k). rewrite G, Gm, Gx in Q. exact Q.
      * intros k x w Gx Gw. assert (Q := O k). rewrite G, Gw, Gx in Q. cbn [osame] in Q. apply (IH nu) in Q; [exact Q| | |apply (Dp k), Gw|apply (Dp k), Gw].
        -- exact (fine_child (VMap bm) (PKey k) x Fx Gx).
        -- exact (fine_child (VMap m) (PKey k) w Fw Gw).
      * intros k w Gx Gw. assert (Q := O k). rewrite G, Gw, Gx in Q. cbn [osame] in Q. apply settles_iff in Q; [exact Q|exact (fine_child (VMap m) (PKey k) w Fw Gw)|apply (Dp k), Gw].
    + intros H. inversion H as [? ? Sa|? ? N1 N2|? ? N1 N2|? ? H1 H2 H3]; subst; [contradiction|destruct N1; eexists; reflexivity|destruct N1; eexists; reflexivity|].
      apply same_map_intro; auto. intros k. rewrite G. destruct (mget k m) as [w|] eqn:Gm.
      * destruct (mget k bm) as [x|] eqn:Gb; cbn [osame].
        -- apply (IH nu); [exact (fine_child (VMap bm) (PKey k) x Fx Gb)|exact (fine_child (VMap m) (PKey k) w Fw Gm)|apply (Dp k), Gm|apply (Dp k), Gm|exact (H2 k x w Gb Gm)].
        -- apply settles_iff; [exact (fine_child (VMap m) (PKey k) w Fw Gm)|apply (Dp k), Gm|exact (H3 k w Gb Gm)].
      * destruct (mget k bm) as [x|] eqn:Gb; [|exact I]. destruct (H1 k x Gb Gm).
  - assert (E : vrd (S nd) (VMap []) x (VMap m) = VMap m) by (destruct x; try reflexivity; destruct Nx; eexists; reflexivity). rewrite E. destruct m as [|kv m].
    + cbn [kept]. split; [intros H; destruct (Ns H)|]. intros H. inversion H as [? ? Sa|? ? N1 N2|? ? N1 N2|? ? H1 H2 H3]; subst; [contradiction|destruct N1; eexists; reflexivity|congruence|destruct Nx; eexists; reflexivity].
    + cbn [kept]. rewrite vrupd_value; [|lia|discriminate|intros [M _]; contradiction]. split; intros _; [apply up_new_map; [exact Nx|discriminate]|apply same_refl, Fw].
  - assert (E : vrd (S nd) (VMap []) x w = w) by (destruct w; cbn [vrd]; rewrite ?Vq; try reflexivity; destruct Nm; eexists; reflexivity). rewrite E.
    assert (Dec : w = VNull \/ w <> VNull) by (destruct w; auto; right; discriminate). destruct Dec as [->|Nn].
    + cbn [kept]. split; [intros H; destruct (Ns H)|]. intros H. inversion H; subst; [contradiction|congruence].
    + assert (K : kept w = Some w) by (unfold kept; destruct w; try reflexivity; [congruence|destruct Nm; eexists; reflexivity]). rewrite K, vrupd_value; [|lia|exact Nn|intros [_ M]; contradiction].
      split; intros _; [apply up_value; auto|apply same_refl, Fw].
Qed.
(** The whole document. *)
Lemma diff_update_iff nu nd b y : fine b -> fine y -> (vdepth y <= nd)%nat -> (vdepth y <= nu)%nat -> is_map b -> is_map y ->
  (same (vrupd nu b (vrd nd (VMap []) b y)) y <-> updatable b y).
Proof.
  intros Fb Fy D Du [bm ->] [m ->]. destruct nu as [|nu]; [assert (Z := vdepth_pos (VMap m)); lia|]. destruct nd as [|nd]; [assert (Z := vdepth_pos (VMap m)); lia|].
  rewrite <- (refreshed_iff (S nd) (S nu)) by assumption. assert (Sm : msorted m) by (apply fine_map, Fy). unfold refreshed.
  assert (V := veqb_same (VMap bm) (VMap m) Fb Fy). destruct (vrd_map nd bm m Sm) as (d & Ed & Sd & Gd). rewrite Ed in *. destruct (veqb (VMap bm) (VMap m)) eqn:Vq.
  - assert (d = []); [|subst; reflexivity]. destruct d as [|[k x] d]; [reflexivity|exfalso]. assert (Q := Gd k). cbn [mget] in Q. rewrite beqb_refl in Q.
    assert (O : forall k, osame (mget k bm) (mget k m)) by (destruct (same_map_inv _ _ (proj1 V eq_refl)) as (r & E & O); injection E as <-; exact O).
    assert (Ok := O k). destruct (mget k m) as [w|] eqn:Gm; [|discriminate]. destruct (mget k bm) as [z|] eqn:Gb; [|exact Ok]. cbn [osame] in Ok.
    rewrite (proj2 (veqb_same z w (fine_child (VMap bm) (PKey k) z Fb Gb) (fine_child (VMap m) (PKey k) w Fy Gm)) Ok) in Q. discriminate.
  - destruct (kept (VMap d)) as [d'|] eqn:K; [apply kept_some in K; destruct K as (-> & _); reflexivity|]. apply kept_none in K. destruct K as [K|K]; [discriminate|]. injection K as ->. reflexivity.
Qed.
(** The difference of documents that are the same is empty. *)
Lemma diff_same n b y : fine b -> fine y -> is_map b -> same b y -> vrd n (VMap []) b y = VMap [].
Proof.
  intros Fb Fy [bm ->] H. destruct n as [|n]; [reflexivity|]. assert (H' := same_sym _ _ H). apply same_map_inv in H'. destruct H' as (m & -> & O).
  assert (Sm : msorted m) by (apply fine_map, Fy). destruct (vrd_map n bm m Sm) as (d & -> & Sd & Gd). f_equal. destruct d as [|[k x] d]; [reflexivity|exfalso].
  assert (Q := Gd k). cbn [mget] in Q. rewrite beqb_refl in Q. assert (Ok := O k). destruct (mget k m) as [w|] eqn:Gm; [|discriminate]. destruct (mget k bm) as [z|] eqn:Gb; [|exact Ok]. cbn [osame] in Ok.
  apply same_sym in Ok. rewrite (proj2 (veqb_same z w (fine_child (VMap bm) (PKey k) z Fb Gb) (fine_child (VMap m) (PKey k) w Fy Gm)) Ok) in Q. discriminate.
Qed.
(** Entries that are not named. *)
Lemma update_elsewhere n : forall r b u k q um bm, vsorted b -> vsorted u -> vat u (List.map PKey r) = Some (VMap um) -> mget k um = None ->
  vat b (List.map PKey r) = Some (VMap bm) -> vat (vrupd n b u) (List.map PKey r ++ PKey k :: q) = vat b (List.map PKey r ++ PKey k :: q).
Proof.
  induction n as [|n IH]; intros r b u k q um bm Sb Su Au G Ab; [reflexivity|]. destruct r as [|k1 r]; cbn [List.map app vat] in *.
  - injection Au as ->. injection Ab as ->. assert (Tb := proj1 (proj1 (vsorted_map _) Sb)). assert (Tu := proj1 (proj1 (vsorted_map _) Su)).
    destruct (vrupd_map n bm um Tb Tu) as (rr & -> & _ & Gr). cbn [vchild]. rewrite Gr, G. reflexivity.
  - destruct (vchild u (PKey k1)) as [w|] eqn:Cu; [|discriminate]. destruct (vchild b (PKey k1)) as [x|] eqn:Cb; [|discriminate].
    assert (Sw := vsorted_child _ _ _ Su Cu). assert (Sx := vsorted_child _ _ _ Sb Cb).
    destruct u; try discriminate. destruct b; try discriminate. assert (Tb := proj1 (proj1 (vsorted_map _) Sb)). assert (Tu := proj1 (proj1 (vsorted_map _) Su)). cbn [vchild] in *.
    destruct (vrupd_map n m0 m Tb Tu) as (rr & -> & _ & Gr). cbn [vchild]. rewrite Gr, Cu, Cb. cbn [or_else]. eapply IH; eauto.
Qed.
