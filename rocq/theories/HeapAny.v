(** Assignment through paths and Merge in any heap: storages shared, in cycles or not. *)
From Verif Require Import Base Float Value Blob Path Numeric Heap HeapProofs HeapSpec ValueOps HeapTree HeapErase HeapTreeFacts.
Open Scope N_scope.

(** All Variants there were, except the one at [l0], are as before. *)
Definition only_at (l0 : loc) (st st' : hstate) : Prop :=
  forall l d, l <> l0 -> peek st l = Some d -> peek st' l = Some d.
Definition none_at (st st' : hstate) : Prop := forall l d, peek st l = Some d -> peek st' l = Some d.
Lemma none_only l0 st st' : none_at st st' -> only_at l0 st st'.
Proof. intros H l d _. apply H. Qed.
Lemma only_refl l0 st : only_at l0 st st.
Proof. intros l d _ H. exact H. Qed.

(** Every map is in order. *)
Definition maps_sorted (st : hstate) : Prop := forall s m, nth_error (h_heap st) s = Some (StMap m) -> msorted m.

Lemma store_only st l c d : maps_sorted st -> peek st l = Some d -> exists st', store l c st = (Ok tt, st') /\ only_at l st st' /\
  peek st' l = Some c /\ hlen st' = hlen st /\ maps_sorted st' /\
  (forall s x, nth_error (h_heap st) s = Some x -> outside l [s] -> nth_error (h_heap st') s = Some x).
Proof.
  intros MS P. destruct (store_ok st l d c P) as (st' & E & V & H & HL). exists st'. split; auto. split; [|split; [|split; [auto|split]]].
  - intros l2 d2 N P2. destruct l2 as [x|s i|s k]; cbn [peek] in *.
    + rewrite V. destruct l; cbn; auto. rewrite nth_lput. destruct (Nat.eqb_spec x x0); auto. subst. congruence.
    + destruct (nth_error (h_heap st) s) as [[|cs| |]|] eqn:X; try discriminate.
      rewrite H, X. destruct l as [|s' i'|]; cbn; auto.
      destruct (Nat.eqb_spec s s'); auto. unfold nthN in *. rewrite nth_lput. destruct (Nat.eqb_spec (N.to_nat i) (N.to_nat i')); auto.
      destruct N. subst. f_equal. lia.
    + destruct (nth_error (h_heap st) s) as [[| |m|]|] eqn:X; try discriminate.
      rewrite H, X. destruct l as [| |s' k']; cbn; auto.
      destruct (Nat.eqb_spec s s'); auto. subst. rewrite mget_mset by eauto. destruct (beqb k k') eqn:B; auto.
      apply beqb_eq in B. congruence.
  - eapply peek_patched; eauto.
  - intros s m X. rewrite H in X. destruct (nth_error (h_heap st) s) as [y|] eqn:Y; [|destruct l; discriminate].
    destruct l as [x|s' i'|s' k']; cbn in X.
    + injection X as ->. eauto.
    + destruct y; try destruct (Nat.eqb s s'); try discriminate; injection X as <-; eauto.
    + destruct y; try discriminate. destruct (Nat.eqb s s'); injection X as <-; [apply msorted_mset|]; eauto.
  - intros s x X O. rewrite H, X. destruct l as [|s' i'|s' k']; cbn in *; auto; destruct x; auto; destruct (Nat.eqb_spec s s'); auto; subst; tauto.
Qed.

Definition kinds (e : pelem) (x : storage) : Prop :=
  match e, x with PKey _, StMap _ => True | PIdx _, StList _ => True | _, _ => False end.
Lemma nth_cput cs i c j : nth_error (cput cs i c) j =
  if Nat.eqb j (N.to_nat i) then Some c else
  if Nat.ltb j (List.length cs) then nth_error cs j else if Nat.ltb j (N.to_nat i) then Some CNull else None.
Proof.
  destruct (N.ltb_spec i (lsize cs)) as [L|L].
  - unfold cput. destruct (N.ltb_spec i (lsize cs)); [|lia]. unfold lsize in *. rewrite nth_lput.
    destruct (Nat.eqb_spec j (N.to_nat i)).
    + destruct (nth_error cs (N.to_nat i)) eqn:X; subst; rewrite ?X; auto. apply nth_error_None in X. lia.
    + destruct (Nat.ltb_spec j (List.length cs)); auto. destruct (Nat.ltb_spec j (N.to_nat i)); [lia|]. apply nth_error_None. lia.
  - rewrite cput_ge by auto. unfold lsize in L. destruct (Nat.ltb_spec j (List.length cs)).
    + rewrite nth_error_app1 by auto. destruct (Nat.eqb_spec j (N.to_nat i)); [lia|auto].
    + rewrite nth_error_app2 by auto. destruct (Nat.ltb_spec j (N.to_nat i)).
      * rewrite nth_error_app1 by (rewrite repeat_length; lia). destruct (Nat.eqb_spec j (N.to_nat i)); [lia|].
        apply nth_error_repeat. lia.
      * rewrite nth_error_app2 by (rewrite repeat_length; lia). rewrite repeat_length. destruct (Nat.eqb_spec j (N.to_nat i)).
        -- subst. rewrite (proj2 (Nat.sub_0_le _ _)) by lia. reflexivity.
        -- apply nth_error_None. cbn. lia.
Qed.
Lemma slot_put_same x e c : kinds e x -> slot_get (slot_put x e c) e = Some c.
Proof.
  destruct e, x; cbn; try tauto; intros _; [apply mget_mset_same|]. unfold nthN. rewrite nth_cput, Nat.eqb_refl. reflexivity.
Qed.

Lemma put_elem_only st s e x c : maps_sorted st -> nth_error (h_heap st) s = Some x -> kinds e x -> elem_small e -> exists st',
  put_elem s e c st = (Ok tt, st') /\ only_at (slot s e) st st' /\ peek st' (slot s e) = Some c /\ maps_sorted st' /\
  hlen st' = hlen st /\ nth_error (h_heap st') s = Some (slot_put x e c).
Proof.
  intros MS X K S. destruct (put_elem_ok st s e x c X) as (st' & E & V & HL & H); auto.
  { destruct e; reflexivity. }
  assert (Hs : nth_error (h_heap st') s = Some (slot_put x e c)) by (rewrite H, Nat.eqb_refl; reflexivity).
  exists st'. split; auto. split; [|split; [|split; [|auto]]].
  - intros l d N P. destruct l as [y|t i|t k]; cbn [peek] in *; [rewrite V; exact P| |]; rewrite H; destruct (Nat.eqb_spec t s); auto; subst t; rewrite X in P.
    + destruct x; try discriminate. destruct e as [|i']; [destruct K|]. cbn [slot_put]. unfold nthN in *. rewrite nth_cput.
      destruct (Nat.eqb_spec (N.to_nat i) (N.to_nat i')); [destruct N; cbn; f_equal; lia|].
      destruct (Nat.ltb_spec (N.to_nat i) (List.length l)); auto. rewrite (proj2 (nth_error_None _ _)) in P by auto. discriminate.
    + destruct x; try discriminate. destruct e as [k'|]; [|destruct K]. cbn [slot_put]. rewrite mget_mset by eauto.
      destruct (beqb k k') eqn:B; auto. apply beqb_eq in B. destruct N. cbn. congruence.
  - rewrite (slot_peek _ _ _ _ Hs). apply slot_put_same, K.
  - intros t m T. rewrite H in T. destruct (Nat.eqb_spec t s); [|eauto]. subst t. destruct x, e; try discriminate; injection T as <-; eauto using msorted_mset.
Qed.

(** One element set in a null: only the null changes. *)
Lemma set_null_only st l e c : maps_sorted st -> peek st l = Some CNull -> elem_small e -> exists st' s,
  set_elem l e c st = (Ok tt, st') /\ only_at l st st' /\ peek st (slot s e) = None /\ peek st' (slot s e) = Some c /\
  get_elem l e false st' = (Ok (Some (slot s e)), st') /\ maps_sorted st'.
Proof.
  intros MS P S. rewrite set_elem_null by exact P.
  destruct (alloc_ok (fresh_storage e) st) as (st0 & E0 & X0 & H0 & L0). rewrite (bind_ok _ _ _ _ _ E0).
  assert (MS0 : maps_sorted st0).
  { intros t m T. destruct (Nat.lt_ge_cases t (hlen st)) as [L|L].
    - rewrite (extends_nth _ _ _ X0 L) in T. eauto.
    - assert (t = hlen st).
      { assert (t < hlen st0)%nat by (unfold hlen; apply nth_error_Some; congruence). lia. }
      subst t. rewrite H0 in T. destruct e; [injection T as <-; exact I|discriminate]. }
  assert (P0 := extends_peek _ _ _ _ X0 P). set (n := hlen st) in *.
  destruct (store_only st0 l (fresh_cell e n) CNull MS0 P0) as (st1 & E1 & O1 & P1 & L1 & MS1 & H1).
  rewrite (bind_ok _ _ _ _ _ E1).
  assert (NL : forall t d, peek st t = Some d -> t <> slot n e /\ outside t [n]).
  { intros t d Pt. assert (outside t [n]).
    { destruct t as [|s i|s k]; cbn in *; auto; intros [J|[]]; subst s; rewrite (proj2 (nth_error_None (h_heap st) n)) in Pt by (unfold n, hlen; lia); discriminate. }
    split; auto. intros ->. destruct e; cbn in H; tauto. }
  assert (Hn : nth_error (h_heap st1) n = Some (fresh_storage e)) by (apply H1; [exact H0|apply (NL _ _ P)]).
  destruct (put_elem_only st1 n e (fresh_storage e) c MS1 Hn) as (st' & E' & O' & P' & MS' & L' & H'); auto.
  { destruct e; exact I. }
  assert (Pl : peek st' l = Some (fresh_cell e n)). { apply O'; [apply (NL _ _ P)|exact P1]. }
  exists st', n. repeat split; auto.
  - intros t d N Pt. apply O'; [apply (NL _ _ Pt)|]. apply O1; auto. eapply extends_peek; eauto.
  - destruct (peek st (slot n e)) eqn:Q; auto. apply NL in Q. destruct Q; congruence.
  - eapply (get_elem_slot st' l (fresh_cell e n) e false n); [exact Pl|destruct e; reflexivity|exact H'|].
    rewrite <- (slot_peek _ _ _ _ H'). exact P'.
Qed.

Lemma get_elem_null st l e : peek st l = Some CNull -> get_elem l e false st = (Ok None, st).
Proof. intros P. destruct e; cbn [get_elem]; [unfold get_key|unfold get_index]; rewrite (bind_load _ _ _ _ P); reflexivity. Qed.

Lemma set_path_null p : forall st l c, maps_sorted st -> peek st l = Some CNull -> path_small p -> exists st',
  set_path p l c st = (Ok tt, st') /\ only_at l st st' /\ maps_sorted st'.
Proof.
  induction p as [|e p IH]; intros st l c MS P S.
  - cbn [set_path]. unfold assign. destruct (store_only st l c CNull MS P) as (st' & E & O & _ & _ & MS' & _). eauto.
  - inversion S as [|? ? S1 S2]; subst. cbn [set_path]. rewrite (bind_ok _ _ _ _ _ (get_elem_null _ _ _ P)). destruct p as [|e2 p].
    + destruct (set_null_only st l e c MS P S1) as (st' & s & E & O & _ & _ & _ & MS'). eauto.
    + destruct (set_null_only st l e CNull MS P S1) as (st1 & s & E & O & A & B & G & MS1).
      rewrite (bind_ok _ _ _ _ _ E), (bind_ok _ _ _ _ _ G).
      destruct (IH st1 (slot s e) c MS1 B S2) as (st' & E' & O' & MS'). exists st'. repeat split; auto.
      intros t d N Pt. apply O'; [congruence|]. apply O; auto.
Qed.

(** In any heap: the place of the assignment is the last object on the path there is; if the path
    ends there it takes the value, if it is null it becomes a container, and otherwise it is a
    container that gets new elements.  Every other Variant in the program stays as it was. *)
Lemma get_elem_nobase st l d e : peek st l = Some d -> base d e = None -> get_elem l e false st = (Ok None, st).
Proof.
  intros P B. destruct e; cbn [get_elem]; [unfold get_key|unfold get_index]; rewrite (bind_load _ _ _ _ P); destruct d; try discriminate; reflexivity.
Qed.
Lemma get_elem_slot_none st l d e s x : peek st l = Some d -> base d e = Some s -> nth_error (h_heap st) s = Some x -> kinds e x ->
  slot_get x e = None -> get_elem l e false st = (Ok None, st).
Proof.
  intros P B X K G. destruct e; cbn [get_elem]; [unfold get_key|unfold get_index]; rewrite (bind_load _ _ _ _ P); destruct d; try discriminate;
    injection B as ->; destruct x; try destruct K; cbn [slot_get] in G.
  - rewrite (bind_get_map _ _ _ _ X), G. reflexivity.
  - rewrite (bind_get_list _ _ _ _ X). unfold nthN in G. apply nth_error_None in G. unfold lsize. destruct (N.ltb_spec i (N.of_nat (List.length l0))); [lia|reflexivity].
Qed.
Lemma wf_base st l d e s : wf st -> peek st l = Some d -> base d e = Some s -> exists x, nth_error (h_heap st) s = Some x /\ kinds e x.
Proof.
  intros W P B. assert (I := wf_peek _ _ _ W P). destruct e, d; try discriminate; injection B as ->; destruct I as [_ (y & Ey & Ky)];
    destruct y; try discriminate; eexists; split; eauto; exact Logic.I.
Qed.
Lemma set_path_any p : forall st l c d, wf st -> maps_sorted st -> peek st l = Some d -> path_small p ->
  (exists st' l0, set_path p l c st = (Ok tt, st') /\ only_at l0 st st' /\
     (get_path p l false st = (Ok (Some l0), st) /\ peek st' l0 = Some c \/
      get_path p l false st = (Ok None, st) /\ (peek st l0 = Some CNull \/ peek st l0 = None))) \/
  set_path p l c st = (Throw UnexpectedTypeError, st).
Proof.
  induction p as [|e p IH]; intros st l c d W MS P S.
  - left. cbn [set_path get_path]. unfold assign. destruct (store_only st l c d MS P) as (st' & E & O & Pl & _). exists st', l.
    split; [exact E|]. split; [exact O|]. left. rewrite (bind_load _ _ _ _ P). auto.
  - inversion S as [|? ? S1 S2]; subst. cbn [set_path get_path].
    destruct (base d e) as [s|] eqn:B.
    + destruct (wf_base _ _ _ _ _ W P B) as (x & X & K). destruct (slot_get x e) as [cw|] eqn:G.
      * rewrite !(bind_ok _ _ _ _ _ (get_elem_slot _ _ _ _ false _ _ _ P B X G)).
        assert (Pw : peek st (slot s e) = Some cw) by (rewrite (slot_peek _ _ _ _ X); exact G).
        destruct (IH st (slot s e) c cw W MS Pw S2) as [(st' & l0 & E & O & H)|E]; [|right; exact E].
        left. exists st', l0. split; [exact E|]. split; [exact O|]. destruct p; [|exact H].
        cbn [get_path] in H. rewrite (bind_load _ _ _ _ Pw) in H. exact H.
      * rewrite !(bind_ok _ _ _ _ _ (get_elem_slot_none _ _ _ _ _ _ P B X K G)).
        assert (Pw : peek st (slot s e) = None) by (rewrite (slot_peek _ _ _ _ X); exact G). left. destruct p as [|e2 p].
        -- destruct (put_elem_only st s e x c MS X K S1) as (st' & E & O & _). exists st', (slot s e).
           split; [rewrite (set_elem_base _ _ _ _ _ _ P B); exact E|]. split; [exact O|]. right. split; [reflexivity|auto].
        -- destruct (put_elem_only st s e x CNull MS X K S1) as (st1 & E & O & P1 & MS1 & L1 & H1).
           assert (Es : set_elem l e CNull st = (Ok tt, st1)) by (rewrite (set_elem_base _ _ _ _ _ _ P B); exact E).
           assert (Pl : exists d1, peek st1 l = Some d1 /\ d1 = d). { exists d. split; auto. apply O; auto. congruence. }
           destruct Pl as (d1 & Pl & ->). rewrite (bind_ok _ _ _ _ _ Es).
           rewrite (bind_ok _ _ _ _ _ (get_elem_slot _ _ _ _ false _ _ CNull Pl B H1 (slot_put_same _ _ _ K))).
           destruct (set_path_null (e2 :: p) st1 (slot s e) c MS1 P1 S2) as (st' & E' & O' & _).
           exists st', (slot s e). split; [exact E'|]. split; [|right; split; [reflexivity|auto]].
           intros t dt N Pt. apply O'; auto.
    + rewrite !(bind_ok _ _ _ _ _ (get_elem_nobase _ _ _ _ P B)). destruct d; try (
        right; assert (Bd : forall c', set_elem l e c' st = (Throw UnexpectedTypeError, st)) by (intros c'; eapply set_elem_bad; [exact P|discriminate|exact B]);
        destruct p; [apply Bd|rewrite (bind_throw _ _ _ _ _ (Bd CNull)); reflexivity]).
      left. destruct (set_path_null (e :: p) st l c MS P S) as (st' & E & O & _). exists st', l.
      cbn [set_path] in E. rewrite (bind_ok _ _ _ _ _ (get_elem_nobase _ _ _ _ P B)) in E. split; [exact E|]. split; [exact O|]. right. auto.
Qed.

(** ** Merge *)
Lemma merge_keys_any l s so o : outside l [s] -> forall ks st m, peek st l = Some (CMap s) ->
  nth_error (h_heap st) s = Some (StMap m) -> nth_error (h_heap st) so = Some (StMap o) -> msorted m -> msorted o ->
  (forall k, In k ks -> mget k o <> None) -> exists st' m',
  merge_keys l so ks st = (Ok tt, st') /\ nth_error (h_heap st') s = Some (StMap m') /\ nth_error (h_heap st') so = Some (StMap o) /\ msorted m' /\
  (forall k, In k ks -> mget k m' = mget k o) /\ (forall k, ~ In k ks -> mget k m' = mget k m) /\
  h_vars st' = h_vars st /\ hlen st' = hlen st /\ forall t, t <> s -> nth_error (h_heap st') t = nth_error (h_heap st) t.
Proof.
  intros OL. induction ks as [|k ks IH]; intros st m P Es Eo Sm So Hk.
  - exists st, m. cbn [merge_keys]. repeat split; auto. intros k [].
  - cbn [merge_keys]. destruct (mget k o) as [c|] eqn:G; [|destruct (Hk k (or_introl eq_refl)); auto].
    assert (Pk : peek st (LKey so k) = Some c) by (cbn [peek]; rewrite Eo; exact G). rewrite (bind_load _ _ _ _ Pk).
    destruct (map_set_key_ok st s m k c Es) as (st1 & E1 & V1 & HL1 & H1).
    assert (S1 : set_key l k c st = (Ok tt, st1)) by (unfold set_key; rewrite (bind_load _ _ _ _ P); exact E1).
    rewrite (bind_ok _ _ _ _ _ S1).
    assert (P1 : peek st1 l = Some (CMap s)).
    { destruct l as [x|t i|t k']; cbn [peek outside] in *; [rewrite V1; exact P| |]; rewrite H1; destruct (Nat.eqb_spec t s); auto; subst; cbn in OL; tauto. }
    assert (Es1 : nth_error (h_heap st1) s = Some (StMap (mset k c m))) by (rewrite H1, Nat.eqb_refl; reflexivity).
    assert (Eo1 : nth_error (h_heap st1) so = Some (StMap o)).
    { rewrite H1. destruct (Nat.eqb_spec so s); auto. subst. assert (m = o) by congruence. subst. rewrite mset_same; auto. }
    destruct (IH st1 (mset k c m) P1 Es1 Eo1) as (st' & m' & E' & Es' & Eo' & Sm' & A & B & V' & HL' & H'); auto using msorted_mset.
    { intros k' I. apply Hk. cbn; auto. }
    exists st', m'. split; [exact E'|]. repeat split; auto; try congruence.
    + intros k' J. destruct (in_dec (list_eq_dec Ascii.ascii_dec) k' ks) as [J'|J']; auto. destruct J as [<-|J]; [|tauto].
      rewrite B by auto. rewrite mget_mset_same. congruence.
    + intros k' J. rewrite B by (cbn in J; tauto). rewrite mget_mset by auto. destruct (beqb k' k) eqn:Bk; auto.
      apply beqb_eq in Bk. subst. cbn in J. tauto.
    + intros t N. rewrite H', H1; auto. destruct (Nat.eqb_spec t s); congruence.
Qed.
Lemma merge_any st l s m so o : outside l [s] -> peek st l = Some (CMap s) ->
  nth_error (h_heap st) s = Some (StMap m) -> nth_error (h_heap st) so = Some (StMap o) -> msorted m -> msorted o -> exists st' m',
  merge (RRef l) (CMap so) st = (Ok tt, st') /\ nth_error (h_heap st') s = Some (StMap m') /\ msorted m' /\
  (forall k, mget k m' = match mget k o with Some c => Some c | None => mget k m end) /\
  h_vars st' = h_vars st /\ hlen st' = hlen st /\ forall t, t <> s -> nth_error (h_heap st') t = nth_error (h_heap st) t.
Proof.
  intros OL P Es Eo Sm So. unfold merge. rewrite (bind_get_map _ _ _ _ Eo). destruct o as [|[k c] o].
  { exists st, m. repeat split; auto. }
  destruct (merge_keys_any l s so ((k, c) :: o) OL (mkeys ((k, c) :: o)) st m P Es Eo Sm So) as (st' & m' & E & Es' & Eo' & Sm' & A & B & V' & HL' & H').
  { intros k' J N. apply mget_None_notin in N. auto. }
  exists st', m'. split; [|split; [auto|split; [auto|split; [|auto]]]].
  - cbn [mkeys List.map fst merge_keys] in *. assert (Pk : peek st (LKey so k) = Some c) by (cbn [peek]; rewrite Eo; apply mget_here).
    rewrite (bind_load _ _ _ _ Pk). cbn [resolve_create]. rewrite (bind_ok (ret l) _ st l st eq_refl).
    destruct (map_set_key_ok st s m k c Es) as (st1 & E1 & V1 & HL1 & H1).
    assert (S1 : set_key l k c st = (Ok tt, st1)) by (unfold set_key; rewrite (bind_load _ _ _ _ P); exact E1).
    rewrite (bind_ok _ _ _ _ _ S1).
    assert (Eo1 : nth_error (h_heap st1) so = Some (StMap ((k, c) :: o))).
    { rewrite H1. destruct (Nat.eqb_spec so s); auto. subst. assert (m = (k, c) :: o) by congruence. subst. rewrite mset_same; auto. apply mget_here. }
    rewrite (bind_get_map _ _ _ _ Eo1). cbn [mkeys List.map fst]. rewrite key_after_tail; [|apply So].
    rewrite (bind_load _ _ _ _ Pk) in E. rewrite (bind_ok _ _ _ _ _ S1) in E. exact E.
  - intros k'. destruct (mget k' ((k, c) :: o)) eqn:G.
    + rewrite A; auto. destruct (in_dec (list_eq_dec Ascii.ascii_dec) k' (mkeys ((k, c) :: o))) as [J'|J']; auto.
      apply mget_None_notin in J'. congruence.
    + apply B. apply mget_None_notin. exact G.
Qed.
