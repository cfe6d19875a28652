(** What the programs of Ext.v do to documents that are trees. *)
From Verif Require Import Base CNum Float Value Blob Path Numeric Convert Emit Uri P_Uri Heap HeapProofs HeapSpec SharingProofs ValueOps HeapTree
  HeapErase HeapTreeFacts Pointer PointerWalk PointerOps PointerCmp PointerSem PatchSem PointerText DiffSem Ext.
Open Scope N_scope.

(** ** A document that is only read, while the one at [l] with the storages [F] is modified *)
Definition view (st : hstate) (l : loc) (F : list nat) (lr : loc) (y : value) (cr : cell) (H : list nat) : Prop :=
  peek st lr = Some cr /\ owns (h_heap st) y cr H /\ NoDup H /\ apart F H /\ outside l H /\ outside lr F /\ lr <> l.
Lemma outside_In l s : outside l [s] <-> ~ (match l with LVar _ => False | LIdx s' _ | LKey s' _ => s' = s end).
Proof. destruct l; cbn; intuition. Qed.
Lemma outside_lt st lr cr (F F' : list nat) : peek st lr = Some cr -> outside lr F -> (forall s, In s F' -> In s F \/ (hlen st <= s)%nat) -> outside lr F'.
Proof.
  intros P O I. destruct lr as [x|s i|s k]; cbn [outside] in *; auto; intros J; apply I in J; (destruct J as [J|J]; [auto|]);
    (assert (s < hlen st)%nat; [|lia]); eapply (peek_lt st _ _ s P); cbn; intros C; apply C; auto.
Qed.
Lemma view_turns st l v c F st' v' c' F' lr y cr H : tree st l v c F -> turns st l F [] st' v' c' F' -> view st l F lr y cr H -> view st' l F' lr y cr H.
Proof.
  intros T U (P & O & ND & A & Ol & Or & Ne). assert (B := turns_becomes _ _ _ _ _ _ _ _ U). destruct U as (T' & I & _).
  assert (I' : forall s, In s F' -> In s F \/ (hlen st <= s)%nat) by (intros s J; apply I in J; destruct J as [J|[[]|J]]; auto).
  split; [exact (elsewhere st l v c F [] st' v' T B lr cr Ne P Or)|].
  split.
  - apply (becomes_keep st l v c F [] st' v' y cr H T B O); auto. intros s J J'. exact (A s J' J).
  - split; [exact ND|]. split; [|split; [exact Ol|split; [|exact Ne]]].
    + intros s J J'. destruct (I' s J) as [J2|J2]; [exact (A s J2 J')|]. assert (X := owns_lt _ _ _ _ _ O J'). unfold hlen in J2. lia.
    + eapply outside_lt; eauto.
Qed.
Lemma view_extends st st' l F lr y cr H : extends st st' -> view st l F lr y cr H -> view st' l F lr y cr H.
Proof. intros X (P & O & R). split; [eapply extends_peek; eauto|]. split; [eapply extends_owns; eauto|exact R]. Qed.
Lemma view_child st l F lr y cr H e w : view st l F lr y cr H -> vchild y e = Some w -> exists s x cw Hw,
  base cr e = Some s /\ nth_error (h_heap st) s = Some x /\ slot_get x e = Some cw /\ view st l F (slot s e) w cw Hw.
Proof.
  intros (P & O & ND & A & Ol & Or & Ne) W. destruct (base_child _ _ _ _ _ _ O W) as [s B].
  destruct (owns_slot _ _ _ _ _ _ O B) as (x & Aa & Fw & Bb & E & -> & _ & _ & Q & _). rewrite W in Q. destruct Q as (cw & G & Ow).
  exists s, x, cw, Fw. split; [exact B|]. split; [exact E|]. split; [exact G|].
  assert (Sub : forall t, In t Fw -> In t (s :: Aa ++ Fw ++ Bb)) by (intros t J; right; rewrite !in_app_iff; auto).
  split; [rewrite (slot_peek _ _ _ _ E); exact G|]. split; [exact Ow|]. split; [apply (proj1 (NoDup_mid _ _ _ _ ND))|].
  split; [intros t J J'; exact (A t J (Sub t J'))|]. split; [eapply outside_incl; eauto|]. split.
  - assert (Ns : ~ In s F) by (intros J; apply (A s J); left; reflexivity). destruct e; exact Ns.
  - intros E'. assert (In s (s :: Aa ++ Fw ++ Bb)) by (left; reflexivity). destruct e; cbn [slot] in E'; subst l; cbn [outside] in Ol; auto.
Qed.
(** Entering an element of the document that is modified. *)
Lemma enter st l v c F e w : tree st l v c F -> vchild v e = Some w -> exists s x cw Fw,
  base c e = Some s /\ nth_error (h_heap st) s = Some x /\ slot_get x e = Some cw /\ tree st (slot s e) w cw Fw /\
  (forall lr y cr H, view st l F lr y cr H -> view st (slot s e) Fw lr y cr H) /\
  forall st' w', becomes st (slot s e) Fw [] st' w' -> exists v', vset_elem v e w' = Some v' /\ becomes st l F [] st' v'.
Proof.
  intros T W. destruct (base_child _ _ _ _ _ _ (tr_owns _ _ _ _ _ T) W) as [s B].
  destruct (owns_slot _ _ _ _ _ _ (tr_owns _ _ _ _ _ T) B) as (x & Aa & Fx & Bb & E & EF & _ & _ & Q & _). rewrite W in Q. destruct Q as (cw & G & _).
  destruct (descend st l v c F e w T W) as (l' & cw' & Fw & Ge & Tw & Sub & Out & Up).
  assert (l' = slot s e). { assert (X := get_elem_slot st l c e true s x cw (tr_peek _ _ _ _ _ T) B E G). rewrite Ge in X. injection X. auto. } subst l'.
  assert (cw' = cw). { assert (X := tr_peek _ _ _ _ _ Tw). rewrite (slot_peek _ _ _ _ E), G in X. congruence. } subst cw'.
  assert (Js : In s F) by (rewrite EF; left; reflexivity).
  exists s, x, cw, Fw. split; [exact B|]. split; [exact E|]. split; [exact G|]. split; [exact Tw|]. split.
  - intros lr y cr H (P & O & ND & A & Ol & Or & Ne). split; [exact P|]. split; [exact O|]. split; [exact ND|]. split; [intros t J J'; exact (A t (Sub t J) J')|].
    split; [apply Out; auto|]. split; [eapply outside_incl; eauto|]. intros ->. destruct e; cbn [slot outside] in Or; auto.
  - intros st' w' Bw. apply (Up []); auto; [destruct l; cbn; auto|intros t _ []].
Qed.

(** ** Steps *)
Lemma extends_turns st st1 l v c F G st2 v2 c2 F2 : tree st l v c F -> extends st st1 -> (forall g, In g G -> (hlen st <= g)%nat) ->
  turns st1 l F G st2 v2 c2 F2 -> turns st l F [] st2 v2 c2 F2.
Proof.
  intros T X Hg (T2 & I & V & N & L). assert (L1 := extends_len _ _ X). split; [exact T2|]. split; [|split; [|split; [|lia]]].
  - intros s J. apply I in J. destruct J as [J|[J|J]]; [auto|right; right; apply Hg; auto|right; right; lia].
  - rewrite V. f_equal. apply X.
  - intros s Ls Ns. rewrite N by (auto; lia). rewrite (extends_nth _ _ _ X Ls). reflexivity.
Qed.
Lemma extends_becomes st st1 l v c F G st2 v2 : tree st l v c F -> extends st st1 -> (forall g, In g G -> (hlen st <= g)%nat) ->
  becomes st1 l F G st2 v2 -> becomes st l F [] st2 v2.
Proof. intros T X Hg (c2 & F2 & U). exists c2, F2. eapply extends_turns; eauto. Qed.
Lemma becomes_refl st l v c F : tree st l v c F -> becomes st l F [] st v.
Proof. intros T. exists c, F. apply turns_refl, T. Qed.
Lemma becomes_trans st l F st1 v1 st2 v2 : becomes st l F [] st1 v1 -> (forall c1 F1, tree st1 l v1 c1 F1 -> turns st l F [] st1 v1 c1 F1 -> becomes st1 l F1 [] st2 v2) -> becomes st l F [] st2 v2.
Proof.
  intros (c1 & F1 & U) B. destruct (B c1 F1) as (c2 & F2 & U2); [apply U|exact U|]. exists c2, F2. eapply turns_trans; eauto.
Qed.

(** A loop. *)
Lemma each_loop {A} l (f : A -> M unit) (step : value -> A -> value) (Q : value -> Prop) (Inv : hstate -> list nat -> Prop) :
  (forall st v c F st' v' c' F', tree st l v c F -> Inv st F -> turns st l F [] st' v' c' F' -> Inv st' F') ->
  forall ks, (forall k v, In k ks -> Q v -> Q (step v k)) ->
  (forall k v st c F, In k ks -> Q v -> tree st l v c F -> Inv st F -> exists st', f k st = (Ok tt, st') /\ becomes st l F [] st' (step v k)) ->
  forall v st c F, Q v -> tree st l v c F -> Inv st F -> exists st', each f ks st = (Ok tt, st') /\ becomes st l F [] st' (fold_left step ks v).
Proof.
  intros HI. induction ks as [|k ks IH]; intros HQ HF v st c F Qv T Iv; cbn [each fold_left].
  - exists st. split; [reflexivity|]. eapply becomes_refl; eauto.
  - destruct (HF k v st c F (or_introl eq_refl) Qv T Iv) as (st1 & E1 & c1 & F1 & U1).
    destruct (IH) with (v := step v k) (st := st1) (c := c1) (F := F1) as (st2 & E2 & c2 & F2 & U2).
    + intros k' v' J. apply HQ. right. exact J.
    + intros k' v' st' c' F' J. apply HF. right. exact J.
    + apply HQ; auto. left. reflexivity.
    + apply U1.
    + eapply HI; eauto.
    + exists st2. rewrite (bind_ok _ _ _ _ _ E1). split; [exact E2|]. exists c2, F2. eapply turns_trans; eauto.
Qed.

(** [r[k] = x]. *)
Lemma assign_key st l v c F k x : tree st l v c F -> (let* r := at_elem (RRef l) (PKey k) in write_ref r x) st = set_path [PKey k] l x st.
Proof.
  intros T. assert (P := tr_peek _ _ _ _ _ T). unfold at_elem. cbn [resolve_check]. rewrite bind_assoc, (bind_ok (ret (Some l)) _ st (Some l) st eq_refl).
  cbn [get_ref_elem set_path get_elem set_elem]. unfold get_ref_key, get_key. rewrite !bind_assoc, !(bind_load _ _ _ _ P).
  assert (Bad : c <> CNull -> (forall s, c <> CMap s) -> (let* r := (throw UnexpectedTypeError : M vref) in write_ref r x) st = (let* o := (ret None : M (option loc)) in
    match o with Some l' => assign x l' | None => set_key l k x end) st).
  { intros N1 N2. change (Throw UnexpectedTypeError, st) with (@throw unit UnexpectedTypeError st). symmetry. unfold bind, ret. cbv beta iota. unfold set_key. rewrite (bind_load _ _ _ _ P).
    destruct c; try reflexivity; [destruct N1; reflexivity|edestruct N2; reflexivity]. }
  destruct c; try (apply Bad; [discriminate|intros s0; discriminate]).
  - rewrite (bind_ok (ret (RProxy l [PKey k])) _ st _ st eq_refl). change (set_ref (RProxy l [PKey k]) x st = (let* o := ret None in match o with Some l' => assign x l' | None => set_key l k x end) st).
    rewrite set_ref_proxy. cbn [set_path get_elem set_elem]. unfold get_key. rewrite bind_assoc, (bind_load _ _ _ _ P). reflexivity.
  - assert (O := tr_owns _ _ _ _ _ T). destruct v; cbn [owns] in O; try (exfalso; exact O). apply (owns_VMap (h_heap st)) in O. destruct O as (cm & Fs & E & _).
    unfold map_get_ref. rewrite !bind_assoc, !(bind_get_map _ _ _ _ E). destruct (mget k cm) as [cw|] eqn:G.
    + reflexivity.
    + rewrite (bind_ok (ret (RProxy l [PKey k])) _ st _ st eq_refl). change (set_ref (RProxy l [PKey k]) x st = (let* o := ret None in match o with Some l' => assign x l' | None => set_key l k x end) st).
      rewrite set_ref_proxy. cbn [set_path get_elem set_elem]. unfold get_key. rewrite bind_assoc, (bind_load _ _ _ _ P), bind_assoc, (bind_get_map _ _ _ _ E), G. reflexivity.
Qed.
(** [r[k] = y.Copy()]. *)
Definition vput_key (v : value) (k : bytes) (x : value) : value := match vset_elem v (PKey k) x with Some v' => v' | None => v end.
Definition mapping (v : value) : Prop := v = VNull \/ exists m, v = VMap m.
Lemma mapping_put v k x : mapping v -> vset_elem v (PKey k) x = Some (vput_key v k x) /\ mapping (vput_key v k x).
Proof. intros [-> |[m ->]]; cbn; (split; [reflexivity|right; eauto]). Qed.
Lemma put_fresh st l v c F k x cx st1 G : tree st l v c F -> mapping v -> extends st st1 -> owns (h_heap st1) x cx G -> NoDup G -> fresh_in st st1 G ->
  exists st', (let* r := at_elem (RRef l) (PKey k) in write_ref r cx) st1 = (Ok tt, st') /\ becomes st l F [] st' (vput_key v k x).
Proof.
  intros T Mv X O ND Fr. assert (T1 := extends_tree _ _ _ _ _ _ X T). rewrite (assign_key _ _ _ _ _ _ _ T1).
  assert (Ap : apart F G). { intros s J J'. apply Fr in J'. assert (Z := owns_lt _ _ _ _ _ (tr_owns _ _ _ _ _ T) J). unfold hlen in *. lia. }
  assert (Ol : outside l G). { destruct l as [y|s i|s y]; cbn [outside]; auto; intros J; apply Fr in J; (assert (s < hlen st)%nat; [|lia]);
    eapply (peek_lt st _ _ s (tr_peek _ _ _ _ _ T)); cbn; intros C; apply C; auto. }
  assert (S := set_path_tree [PKey k] st1 l v c F x cx G T1 ltac:(repeat constructor) O ND Ap Ol).
  destruct (mapping_put v k x Mv) as [E _]. cbn [vset] in S. rewrite E in S. destruct S as (st' & R & B). exists st'. split; [exact R|].
  eapply extends_becomes; eauto. intros g J. apply Fr, J.
Qed.
Lemma set_fresh st l v c F x cx st1 G : tree st l v c F -> extends st st1 -> owns (h_heap st1) x cx G -> NoDup G -> fresh_in st st1 G ->
  exists st', write_ref (RRef l) cx st1 = (Ok tt, st') /\ becomes st l F [] st' x.
Proof.
  intros T X O ND Fr. assert (T1 := extends_tree _ _ _ _ _ _ X T).
  assert (Ap : apart F G). { intros s J J'. apply Fr in J'. assert (Z := owns_lt _ _ _ _ _ (tr_owns _ _ _ _ _ T) J). unfold hlen in *. lia. }
  assert (Ol : outside l G). { destruct l as [y|s i|s y]; cbn [outside]; auto; intros J; apply Fr in J; (assert (s < hlen st)%nat; [|lia]);
    eapply (peek_lt st _ _ s (tr_peek _ _ _ _ _ T)); cbn; intros C; apply C; auto. }
  destruct (set_path_tree [] st1 l v c F x cx G T1 ltac:(constructor) O ND Ap Ol) as (st' & R & B). exists st'. split; [exact R|].
  eapply extends_becomes; eauto. intros g J. apply Fr, J.
Qed.

(** ** RUpdate *)
Definition or_else (o : option value) (d : value) : value := match o with Some w => w | None => d end.
Fixpoint vrupd (n : nat) (b u : value) : value :=
  match n with
  | O => b
  | S n' =>
      match u, b with
      | VNull, _ => b
      | VMap m, VMap _ =>
          fold_left (fun b k => vput_key b k (vrupd n' (or_else (vchild b (PKey k)) (VMap [])) (or_else (mget k m) VNull))) (mkeys m) b
      | _, _ => u
      end
  end.
Definition is_map (v : value) : Prop := exists m, v = VMap m.
Lemma is_map_dec v : {is_map v} + {~ is_map v}.
Proof. destruct v; try (right; intros [m E]; discriminate). left. eexists. reflexivity. Defined.
Lemma tree_map st l m c F : tree st l (VMap m) c F -> exists s cm, c = CMap s /\ nth_error (h_heap st) s = Some (StMap cm) /\ List.map fst m = List.map fst cm /\ msorted m /\ In s F.
Proof.
  intros T. assert (O := tr_owns _ _ _ _ _ T). destruct c; cbn [owns] in O; try (exfalso; exact O). apply (owns_VMap (h_heap st)) in O.
  destruct O as (cm & Fs & E & -> & S & K & _). exists s, cm. repeat split; auto. left. reflexivity.
Qed.
Lemma mget_keys_none {A B} k (m : list (bytes * A)) (m' : list (bytes * B)) : List.map fst m = List.map fst m' -> mget k m = None -> mget k m' = None.
Proof.
  revert m'; induction m as [|[k1 x] m IH]; intros [|[k2 y] m']; cbn; try discriminate; auto. intros E. injection E as -> E. destruct (beqb k k2); [discriminate|]. auto.
Qed.
Lemma at_def st l m c F k : tree st l (VMap m) c F -> exists s st1 F1,
  (let* n := alloc (StMap []) in at_elem_def (RRef l) (PKey k) (CMap n)) st = (Ok (RRef (LKey s k)), st1) /\ c = CMap s /\
  turns st l F [] st1 (VMap (match mget k m with Some _ => m | None => mset k (VMap []) m end)) c F1.
Proof.
  intros T. destruct (tree_map _ _ _ _ _ T) as (s & cm & -> & E & K & S & _).
  destruct (alloc_ok (StMap []) st) as (st1 & E1 & X & N1 & L1). assert (T1 := extends_tree _ _ _ _ _ _ X T). assert (E' := extends_nth' _ _ _ _ X E).
  rewrite (bind_ok _ _ _ _ _ E1). unfold at_elem_def. cbn [resolve_create]. rewrite (bind_ok (ret l) _ st1 l st1 eq_refl). cbn [get_ref_elem].
  unfold get_ref_key. rewrite (bind_load _ _ _ _ (tr_peek _ _ _ _ _ T1)). unfold map_get_ref. rewrite (bind_get_map _ _ _ _ E').
  destruct (mget k m) as [w|] eqn:G.
  - destruct (mget k cm) as [cw|] eqn:G'; [|exfalso; symmetry in K; assert (Z := mget_keys_none _ _ _ K G'); congruence].
    exists s, st1, F. split; [reflexivity|]. split; [reflexivity|]. apply (extends_turns _ _ _ _ _ _ [] _ _ _ _ T X); [intros g []|]. apply turns_refl, T1.
  - assert (G' := mget_keys_none _ _ _ K G). rewrite G'. unfold map_insert. rewrite bind_assoc, (bind_get_map _ _ _ _ E'), G'.
    destruct (put_storage_upd st1 s (StMap (mset k (CMap (hlen st)) cm)) _ E') as (st2 & E2 & V2 & L2 & N2). rewrite (bind_ok _ _ _ _ _ E2).
    assert (O1 : owns (h_heap st1) (VMap []) (CMap (hlen st)) [hlen st]).
    { apply owns_VMap. exists [], []. repeat split; auto. }
    assert (Lt : forall t, In t F -> (t < hlen st)%nat) by (intros t J; unfold hlen; eapply owns_lt; [apply T|exact J]).
    assert (Ap : apart F [hlen st]) by (intros t J [J'|[]]; apply Lt in J; lia).
    assert (Ol : outside l [hlen st]). { destruct l as [y|t i|t y]; cbn [outside]; auto; intros [J|[]]; (assert (t < hlen st)%nat; [|lia]);
      eapply (peek_lt st _ _ t (tr_peek _ _ _ _ _ T)); cbn; intros C; apply C; auto. }
    destruct (put_elem_turns st1 l (VMap m) (CMap s) F (PKey k) s (VMap []) (CMap (hlen st)) [hlen st] T1 eq_refl I O1 ltac:(repeat constructor; intros []) Ap Ol)
      as (st3 & v' & F' & E3 & Ev & U & _). cbn [vset_elem] in Ev. injection Ev as <-.
    destruct (map_set_key_ok st1 s cm k (CMap (hlen st)) E') as (st4 & E4 & V4 & L4 & N4). cbn [put_elem] in E3. rewrite E3 in E4. injection E4 as <-.
    assert (st3 = st2) by (apply hstate_ext; [congruence|intros t; rewrite N4, N2; reflexivity]). subst st3.
    exists s, st2, F'. split; [reflexivity|]. split; [reflexivity|]. apply (extends_turns _ _ _ _ _ _ [hlen st] _ _ _ _ T X); [intros g [<-|[]]; lia|exact U].
Qed.
Lemma view_map st l F lr m cr H : view st l F lr (VMap m) cr H -> exists s cm, cr = CMap s /\ nth_error (h_heap st) s = Some (StMap cm) /\ List.map fst m = List.map fst cm /\ msorted m.
Proof.
  intros (_ & O & _). destruct cr; cbn [owns] in O; try (exfalso; exact O). apply (owns_VMap (h_heap st)) in O. destruct O as (cm & Fs & E & -> & S & K & _). exists s, cm. auto.
Qed.
Lemma mget_mkeys {A} k (m : list (bytes * A)) : In k (mkeys m) -> exists w, mget k m = Some w.
Proof.
  unfold mkeys. intros J. destruct (mget k m) eqn:G; eauto. exfalso. induction m as [|[k1 x] m IH]; cbn in *; auto. destruct (beqb k k1) eqn:B; [discriminate|].
  destruct J as [->|J]; auto. rewrite beqb_refl in B. discriminate.
Qed.
Lemma vput_get m k w : mget k (match mget k m with Some _ => m | None => mset k (VMap []) m end) = Some w -> w = or_else (mget k m) (VMap []).
Proof. destruct (mget k m) as [x|] eqn:G; cbn [or_else]; [congruence|]. rewrite mget_mset_same. congruence. Qed.

Lemma rupdate_sem n : forall st l v c F lr y cr H, tree st l v c F -> view st l F lr y cr H -> noblob y -> (vdepth y <= n)%nat ->
  exists st', rupdate n (RRef l) lr st = (Ok tt, st') /\ becomes st l F [] st' (vrupd n v y).
Proof.
  induction n as [|n IH]; intros st l v c F lr y cr H T V Nb D; [assert (Z := vdepth_pos y); lia|]. cbn [rupdate]. rewrite (bind_load _ _ _ _ (proj1 V)).
  assert (Copy : (forall m, y <> VMap m \/ ~ is_map v) -> y <> VNull -> vrupd (S n) v y = y /\
    exists st', (let* x := copy (S n) cr in write_ref (RRef l) x) st = (Ok tt, st') /\ becomes st l F [] st' y).
  { intros Ny Nn. split.
    - cbn [vrupd]. destruct y; auto; [congruence|]. destruct v; auto. destruct (Ny m) as [C|C]; destruct C; [reflexivity|eexists; reflexivity].
    - destruct (copy_tree y cr H (S n) st (proj1 (proj2 V)) Nb D) as (cx & st1 & G & E1 & X & O & ND & Fr). rewrite (bind_ok _ _ _ _ _ E1). eapply set_fresh; eauto. }
  assert (O := proj1 (proj2 V)).
  destruct y; destruct cr; cbn [owns] in O; try (exfalso; exact O); try (destruct Copy as [-> Cp]; [left; discriminate|discriminate|exact Cp]).
  - exists st. split; [reflexivity|]. cbn [vrupd]. eapply becomes_refl; eauto.
  - rename s into sy. cbn [exists_ref resolve_check]. unfold exists_ref. cbn [resolve_check]. rewrite bind_assoc.
    rewrite (bind_ok (ret (Some l)) _ st (Some l) st eq_refl), (bind_ok (ret true) _ st true st eq_refl).
    unfold read_ref. cbn [resolve_throw]. rewrite !bind_assoc, (bind_ok (ret l) _ st l st eq_refl), (bind_load _ _ _ _ (tr_peek _ _ _ _ _ T)).
    destruct (is_map_dec v) as [[bm ->]|Nm].
    + destruct (tree_map _ _ _ _ _ T) as (s & cm & -> & E & K & S & _). rewrite (bind_ok (ret true) _ st true st eq_refl).
      destruct (view_map _ _ _ _ _ _ _ V) as (s' & ym & Ec & Ey & Ky & Sy). injection Ec as <-. rewrite (bind_get_map _ _ _ _ Ey).
      assert (Kk : mkeys ym = mkeys m) by (unfold mkeys; congruence). rewrite Kk. cbn [vrupd].
      apply (each_loop l _ _ is_map (fun st F => view st l F lr (VMap m) (CMap sy) H)) with (c := CMap s); auto.
      * intros st0 v0 c0 F0 st1 v1 c1 F1 T0 V0 U. eapply view_turns; eauto.
      * intros k v0 J [m0 ->]. destruct (mapping_put (VMap m0) k (vrupd n (or_else (vchild (VMap m0) (PKey k)) (VMap [])) (or_else (mget k m) VNull))) as [_ Z]; [right; eauto|].
        cbn [vput_key vset_elem]. eexists. reflexivity.
      * clear - IH Nb D. intros k v0 st c F J [m0 ->] T V.
        destruct (mget_mkeys _ _ J) as [w Gw]. rewrite Gw. cbn [or_else].
        destruct (at_def st l m0 c F k T) as (s & st1 & F1 & E1 & -> & U1). rewrite <- bind_assoc, (bind_ok _ _ _ _ _ E1).
        set (m1 := match mget k m0 with Some _ => m0 | None => mset k (VMap []) m0 end) in *.
        assert (V1 := view_turns _ _ _ _ _ _ _ _ _ _ _ _ _ T U1 V). assert (T1 := proj1 U1).
        assert (W1 : exists w1, vchild (VMap m1) (PKey k) = Some w1).
        { cbn [vchild]. unfold m1. destruct (mget k m0) eqn:G; eauto. rewrite mget_mset_same. eauto. }
        destruct W1 as [w1 W1]. assert (Ew : w1 = or_else (mget k m0) (VMap [])) by (apply (vput_get m0 k w1 W1)).
        destruct (enter st1 l (VMap m1) (CMap s) F1 (PKey k) w1 T1 W1) as (s1 & x1 & cw1 & Fw1 & B1 & X1 & G1 & Tw & Vw & Up). injection B1 as <-.
        destruct (view_child st1 l F1 lr (VMap m) (CMap sy) H (PKey k) w V1 Gw) as (s2 & x2 & cw2 & Hw & B2 & X2 & G2 & V2). injection B2 as <-.
        destruct (IH st1 (LKey s k) w1 cw1 Fw1 (LKey sy k) w cw2 Hw Tw (Vw _ _ _ _ V2)) as (st2 & E2 & B).
        { apply (noblob_child (VMap m) (PKey k)); auto. } { assert (Z := vdepth_child (VMap m) (PKey k) w Gw). lia. }
        exists st2. split; [exact E2|]. destruct (Up _ _ B) as (v2 & Ev & B'). cbn [vset_elem] in Ev. injection Ev as <-.
        cbn [vchild vput_key vset_elem]. rewrite Ew in B'. destruct B' as (c2 & F2 & U2). exists c2, F2.
        replace (mset k (vrupd n (or_else (mget k m0) (VMap [])) w) m0) with (mset k (vrupd n (or_else (mget k m0) (VMap [])) w) m1).
        -- eapply turns_trans; eauto.
        -- unfold m1. destruct (mget k m0); auto. apply mset_mset.
      * eexists. reflexivity.
    + assert (Nc : (match c with CMap _ => true | _ => false end) = false).
      { destruct c; auto. exfalso. apply Nm. assert (O' := tr_owns _ _ _ _ _ T). destruct v; cbn [owns] in O'; try (exfalso; exact O'). eexists; reflexivity. }
      rewrite Nc, (bind_ok (ret false) _ st false st eq_refl). destruct Copy as [-> Cp]; [right; exact Nm|discriminate|exact Cp].
Qed.

(** ** RDiff *)
Definition veqb (b y : value) : bool := match vcompare b y with Ok z => (z =? 0)%Z | _ => false end.
(** The entry for a key is removed when it is null or an empty map. *)
Definition vdrop (d : value) (k : bytes) : value :=
  match d with
  | VMap m => match mget k m with Some VNull | Some (VMap []) => VMap (mdel k m) | _ => d end
  | _ => d
  end.
Fixpoint vrd (n : nat) (d b y : value) : value :=
  match n with
  | O => d
  | S n' =>
      match y with
      | VMap m =>
          match b with
          | VMap bm =>
              fold_left (fun d k =>
                let w := or_else (mget k m) VNull in
                match mget k bm with
                | None => vput_key d k w
                | Some x => vdrop (if veqb x w then d else vput_key d k (vrd n' (VMap []) x w)) k
                end) (mkeys m) d
          | _ => y
          end
      | _ => if veqb b y then d else y
      end
  end.
Lemma contains_view st l F lr m cr H k : view st l F lr (VMap m) cr H ->
  contains (RRef lr) (PKey k) st = (Ok (match mget k m with Some _ => true | None => false end), st).
Proof.
  intros V. destruct (view_map _ _ _ _ _ _ _ V) as (s & cm & -> & E & K & _). rewrite (contains_ref st lr (CMap s) (PKey k) s _ (proj1 V) eq_refl E I). cbn [slot_get].
  destruct (mget k m) eqn:G.
  - destruct (mget k cm) eqn:G'; auto. symmetry in K. rewrite (mget_keys_none _ _ _ K G') in G. discriminate.
  - rewrite (mget_keys_none _ _ _ K G). reflexivity.
Qed.
Lemma contains_tree st l m c F k : tree st l (VMap m) c F -> contains (RRef l) (PKey k) st = (Ok (match mget k m with Some _ => true | None => false end), st).
Proof.
  intros T. destruct (tree_map _ _ _ _ _ T) as (s & cm & -> & E & K & _). rewrite (contains_ref st l (CMap s) (PKey k) s _ (tr_peek _ _ _ _ _ T) eq_refl E I). cbn [slot_get].
  destruct (mget k m) eqn:G.
  - destruct (mget k cm) eqn:G'; auto. symmetry in K. rewrite (mget_keys_none _ _ _ K G') in G. discriminate.
  - rewrite (mget_keys_none _ _ _ K G). reflexivity.
Qed.
Lemma nothing_left_sem st w cw Fw : owns (h_heap st) w cw Fw -> nothing_left cw st = (Ok (match w with VNull | VMap [] => true | _ => false end), st).
Proof.
  intros O. destruct w, cw; cbn [owns] in O; try (exfalso; exact O); try reflexivity. apply (owns_VMap (h_heap st)) in O. destruct O as (cm & Fs & E & _ & _ & K & _).
  unfold nothing_left. rewrite (bind_get_map _ _ _ _ E). destruct m, cm; try discriminate; reflexivity.
Qed.
(** Lines 245-251. *)
Lemma drop_sem st l m c F k : tree st l (VMap m) c F -> exists st',
  (let* has := contains (RRef l) (PKey k) in
   if has then
     let* r := at_elem (RRef l) (PKey k) in
     let* d := read_ref r in
     let* e := nothing_left d in
     if e then let* l0 := resolve_throw (RRef l) in erase_elem l0 (PKey k) else ret tt
   else ret tt) st = (Ok tt, st') /\ becomes st l F [] st' (vdrop (VMap m) k).
Proof.
  intros T. rewrite (bind_ok _ _ _ _ _ (contains_tree _ _ _ _ _ _ T)). cbn [vdrop]. destruct (mget k m) as [w|] eqn:G.
  2:{ exists st. split; [reflexivity|]. eapply becomes_refl; eauto. }
  destruct (enter st l (VMap m) c F (PKey k) w T G) as (s & x & cw & Fw & B & X & Gc & Tw & _ & _).
  assert (E1 := get_ref_slot st l c (PKey k) s x cw None (tr_peek _ _ _ _ _ T) B X Gc). rewrite <- at_rref in E1. rewrite (bind_ok _ _ _ _ _ E1).
  assert (E2 : read_ref (RRef (slot s (PKey k))) st = (Ok cw, st)) by (apply read_rref, Tw). rewrite (bind_ok _ _ _ _ _ E2).
  rewrite (bind_ok _ _ _ _ _ (nothing_left_sem _ _ _ _ (tr_owns _ _ _ _ _ Tw))).
  assert (Er := erase_elem_tree st l (VMap m) c F (PKey k) T I I). cbn [verase_elem] in Er. destruct Er as (st1 & E3 & B3).
  assert (Keep : exists st', (ret tt) st = (Ok tt, st') /\ becomes st l F [] st' (VMap m)) by (exists st; split; [reflexivity|eapply becomes_refl; eauto]).
  destruct w as [| | | | | | |[|]|]; try exact Keep; exists st1; (split; [cbn [resolve_throw]; rewrite (bind_ok (ret l) _ st l st eq_refl); exact E3|exact B3]).
Qed.

Lemma rdiff_sem n : forall st l v c F lb b cb Hb ly y cy Hy, tree st l v c F -> view st l F lb b cb Hb -> view st l F ly y cy Hy ->
  is_map v -> noblob b -> noblob y -> (vdepth y <= n)%nat ->
  exists st', rdiff n (RRef l) lb ly st = (Ok tt, st') /\ becomes st l F [] st' (vrd n v b y).
Proof.
  induction n as [|n IH]; intros st l v c F lb b cb Hb ly y cy Hy T Vb Vy [d ->] Nb Ny D; [assert (Z := vdepth_pos y); lia|]. cbn [rdiff].
  rewrite (bind_load _ _ _ _ (proj1 Vy)), (bind_load _ _ _ _ (proj1 Vb)).
  assert (Copy : exists st', (let* x := copy (S n) cy in write_ref (RRef l) x) st = (Ok tt, st') /\ becomes st l F [] st' y).
  { destruct (copy_tree y cy Hy (S n) st (proj1 (proj2 Vy)) Ny D) as (cx & st1 & G & E1 & X & O & ND & Fr). rewrite (bind_ok _ _ _ _ _ E1). eapply set_fresh; eauto. }
  assert (Cmp : forall st l F lb b cb Hb ly y cy Hy, view st l F lb b cb Hb -> view st l F ly y cy Hy -> noblob b ->
    exists z, compare cb cy st = (Ok z, st) /\ veqb b y = (z =? 0)%Z).
  { clear. intros st l F lb b cb Hb ly y cy Hy Vb Vy Nb. destruct (vcompare_ok b Nb y) as [z Z]. exists z. unfold veqb. rewrite Z. split; [|reflexivity]. rewrite <- Z.
    apply (compare_owns st b cb Hb y cy Hy); auto; [apply Vb|apply Vb|apply Vy]. }
  assert (Flat : (forall m, y <> VMap m) -> vrd (S n) (VMap d) b y = (if veqb b y then VMap d else y) /\
     exists st', (let* z := compare cb cy in if (z =? 0)%Z then ret tt else let* x := copy (S n) cy in write_ref (RRef l) x) st = (Ok tt, st') /\
       becomes st l F [] st' (if veqb b y then VMap d else y)).
  { intros Nm. split; [cbn [vrd]; destruct y; auto; edestruct Nm; reflexivity|]. destruct (Cmp _ _ _ _ _ _ _ _ _ _ _ Vb Vy Nb) as (z & Ez & Eq). rewrite (bind_ok _ _ _ _ _ Ez), Eq.
    destruct (z =? 0)%Z; [|exact Copy]. exists st. split; [reflexivity|eapply becomes_refl; eauto]. }
  assert (Oy := proj1 (proj2 Vy)).
  destruct y; destruct cy; cbn [owns] in Oy; try (exfalso; exact Oy); try (destruct Flat as [-> Fl]; [discriminate|exact Fl]). rename s into sy.
  assert (Ob := proj1 (proj2 Vb)). cbn [vrd]. clear Oy.
  destruct b; destruct cb; cbn [owns] in Ob; try (exfalso; exact Ob); try exact Copy. rename s into sb, m0 into bm. clear Copy Flat Ob.
  destruct (view_map _ _ _ _ _ _ _ Vy) as (s' & ym & Ec & Ey & Ky & Sy). injection Ec as <-. rewrite (bind_get_map _ _ _ _ Ey).
  assert (Kk : mkeys ym = mkeys m) by (unfold mkeys; congruence). rewrite Kk.
  apply (each_loop l _ _ is_map (fun st F => view st l F ly (VMap m) (CMap sy) Hy /\ view st l F lb (VMap bm) (CMap sb) Hb)) with (c := c); auto.
  - intros st0 v0 c0 F0 st1 v1 c1 F1 T0 [V1 V2] U. split; eapply view_turns; eauto.
  - assert (Dr : forall k0 v0, is_map v0 -> is_map (vdrop v0 k0)).
    { intros k0 v0 [m0 ->]. cbn [vdrop]. destruct (mget k0 m0) as [[| | | | | | |[|]|]|]; eexists; reflexivity. }
    assert (Pu : forall k0 v0 x, is_map v0 -> is_map (vput_key v0 k0 x)) by (intros k0 v0 x [m0 ->]; eexists; reflexivity).
    intros k v0 J Mv. cbv zeta. destruct (mget k bm); [|apply Pu, Mv]. apply Dr. destruct (veqb _ _); auto.
  - clear T Vb Vy Ey Ky Kk st F. intros k v0 st c0 F J [m0 ->] T [Vy Vb]. cbv zeta. destruct (mget_mkeys _ _ J) as [w Gw]. rewrite Gw. cbn [or_else].
    rewrite (bind_ok _ _ _ _ _ (contains_view _ _ _ _ _ _ _ _ Vb)).
    destruct (view_child st l F ly (VMap m) (CMap sy) Hy (PKey k) w Vy Gw) as (s2 & x2 & cw & Hw & B2 & X2 & G2 & Vw). injection B2 as <-. cbn [slot] in Vw.
    assert (Nw : noblob w) by (apply (noblob_child (VMap m) (PKey k)); auto).
    assert (Dw : (vdepth w <= n)%nat) by (assert (Z := vdepth_child (VMap m) (PKey k) w Gw); lia).
    destruct (mget k bm) as [x|] eqn:Gb; cbn [negb].
    + destruct (view_child st l F lb (VMap bm) (CMap sb) Hb (PKey k) x Vb Gb) as (s3 & x3 & cx & Hx & B3 & X3 & G3 & Vx). injection B3 as <-. cbn [slot] in Vx.
      assert (Nx : noblob x) by (apply (noblob_child (VMap bm) (PKey k)); auto).
      rewrite (bind_load _ _ _ _ (proj1 Vx)), (bind_load _ _ _ _ (proj1 Vw)). destruct (Cmp _ _ _ _ _ _ _ _ _ _ _ Vx Vw Nx) as (z & Ez & Eq). rewrite (bind_ok _ _ _ _ _ Ez), Eq.
      assert (Step : exists st1 m1, (if (z =? 0)%Z then ret tt else let* n0 := alloc (StMap []) in let* r := at_elem (RRef l) (PKey k) in write_ref r (CMap n0);;
          let* r0 := at_elem (RRef l) (PKey k) in rdiff n r0 (LKey sb k) (LKey sy k)) st = (Ok tt, st1) /\
          (if (z =? 0)%Z then VMap m0 else vput_key (VMap m0) k (vrd n (VMap []) x w)) = VMap m1 /\ becomes st l F [] st1 (VMap m1)).
      { destruct (z =? 0)%Z; [exists st, m0; split; [reflexivity|split; [reflexivity|eapply becomes_refl; eauto]]|].
        destruct (alloc_ok (StMap []) st) as (st1 & E1 & X1 & N1 & L1). rewrite (bind_ok _ _ _ _ _ E1).
        destruct (put_fresh st l (VMap m0) c0 F k (VMap []) (CMap (hlen st)) st1 [hlen st] T ltac:(right; eauto) X1) as (st2 & E2 & c2 & F2 & U2).
        { apply owns_VMap. exists [], []. repeat split; auto. } { repeat constructor; intros []. } { intros s [<-|[]]. lia. }
        rewrite <- bind_assoc. rewrite (bind_ok _ _ _ _ _ E2). cbn [vput_key vset_elem] in *. assert (T2 := proj1 U2).
        assert (W2 : vchild (VMap (mset k (VMap []) m0)) (PKey k) = Some (VMap [])) by (cbn [vchild]; apply mget_mset_same).
        destruct (enter st2 l _ c2 F2 (PKey k) (VMap []) T2 W2) as (s & y2 & cw2 & Fw & B & Y2 & Gc & Tw & Vin & Up).
        assert (E3 := get_ref_slot st2 l c2 (PKey k) s y2 cw2 None (tr_peek _ _ _ _ _ T2) B Y2 Gc). rewrite <- at_rref in E3. rewrite (bind_ok _ _ _ _ _ E3).
        assert (Vw2 := Vin _ _ _ _ (view_turns _ _ _ _ _ _ _ _ _ _ _ _ _ T U2 Vw)). assert (Vx2 := Vin _ _ _ _ (view_turns _ _ _ _ _ _ _ _ _ _ _ _ _ T U2 Vx)).
        destruct (IH st2 (LKey s k) (VMap []) cw2 Fw (LKey sb k) x cx Hx (LKey sy k) w cw Hw Tw Vx2 Vw2 ltac:(eexists; reflexivity) Nx Nw Dw) as (st3 & E4 & B4).
        destruct (Up _ _ B4) as (v3 & Ev & c3 & F3 & U3). cbn [vset_elem] in Ev. injection Ev as <-. rewrite mset_mset in U3.
        exists st3. eexists. split; [exact E4|]. split; [reflexivity|]. exists c3, F3. eapply turns_trans; eauto. }
      destruct Step as (st1 & m1 & E1 & -> & c1 & F1 & U1). rewrite (bind_ok _ _ _ _ _ E1).
      destruct (drop_sem st1 l m1 c1 F1 k (proj1 U1)) as (st2 & E2 & c2 & F2 & U2). exists st2. split; [exact E2|]. exists c2, F2. eapply turns_trans; eauto.
    + rewrite (bind_load _ _ _ _ (proj1 Vw)). destruct (copy_tree w cw Hw n st (proj1 (proj2 Vw)) Nw Dw) as (cx & st1 & G & E1 & X & O & ND & Fr).
      rewrite (bind_ok _ _ _ _ _ E1). eapply put_fresh; eauto. right. eauto.
  - eexists. reflexivity.
Qed.
