(** Proofs about Life.v: removing elements, the elements that are made when missing. *)
From Coq Require Import Lia ZArith.
From Verif Require Import Base Float Value Path Life LifeProofs LifeSafe LifeRefs LifeGrow.
Open Scope nat_scope.

Lemma holds_kind st b o T x : wf None st -> l_obj st b = Some o -> is_ref (o_c o) = false ->
  holds (o_c o) = Some T -> l_sto st T = Some x -> kind x <> 3.
Proof.
  intros W E R H Ex. assert (C : cvalid st (o_c o)) by (eapply cvalid_of; eauto; discriminate).
  destruct (cvalid_nonref _ _ _ C H) as [y [Ey K]]. congruence.
Qed.

(** ** Removing elements *)
Lemma remove_spec rk r st s y y' D : ok st -> acyc rk st -> l_sto st s = Some y -> kind y <> 3 ->
  kind y' = kind y -> incl (elems y') (elems y) -> NoDup (elems y') ->
  (forall d, In d D -> In d (elems y) /\ ~ In d (elems y')) ->
  exists st', (set_sto s y' >>> kill_all D) st = (Ok tt, st') /\ ok st' /\ fr None st st' /\ acyc rk st' /\
    l_sto st' s = Some y' /\ ((rk s < r)%Z -> low rk r st st') /\
    (forall b o, l_obj st b = Some o -> holds (o_c o) = Some s -> l_obj st' b = Some o).
Proof.
  intros [W T] A Es K3 Kk Hi ND HD. pose proof A as [A1 A2].
  set (st1 := set_stos st (upd (l_sto st) s (Some y'))).
  set (st2 := fold_left kill_obj D st1).
  assert (W1 : wf None st1).
  { eapply wf_set_sto; eauto. intros e He. split; [|left; auto]. eapply (wf_el _ _ W); eauto. }
  assert (E1 : forall T x, l_sto st1 T = Some x -> (T = s /\ x = y') \/ (T <> s /\ l_sto st T = Some x)).
  { intros U x. cbn. unfold upd. destruct (Nat.eqb_spec U s); intro E; [left; split; congruence|right; auto]. }
  assert (E1e : forall e, elem_of st1 e -> elem_of st e).
  { intros e [U [x [E He]]]. apply E1 in E. destruct E as [[-> ->]|[_ E]]; [exists s, y; auto|exists U, x; auto]. }
  assert (ND1 : forall d, In d D -> ~ elem_of st1 d).
  { intros d Hd [U [x [E He]]]. destruct (HD _ Hd) as [H1 H2]. apply E1 in E. destruct E as [[-> ->]|[N E]]; [auto|].
    apply N. eapply (wf_dj _ _ W U s); eauto. }
  assert (W2 : wf None st2) by (apply wf_kills; auto).
  kr D st1. fold st2 in Kno, Ksto, Kns, Kpin.
  assert (O2 : forall b, ~ In b D -> l_obj st2 b = l_obj st b).
  { intros b Hb. unfold st2. rewrite kills_obj. apply mem_not in Hb. rewrite Hb. reflexivity. }
  assert (O2' : forall b o, l_obj st2 b = Some o -> l_obj st b = Some o).
  { intros b o. unfold st2. rewrite kills_obj. destruct (mem b D); [discriminate|auto]. }
  assert (A3 : acyc rk st2).
  { split.
    - intros U x e o S E He Eo Eh. rewrite Ksto in E. apply O2' in Eo. apply E1 in E.
      destruct E as [[-> ->]|[_ E]]; [exact (A1 _ _ _ _ _ Es (Hi _ He) Eo Eh)|exact (A1 _ _ _ _ _ E He Eo Eh)].
    - intros z t S p U x Ez E He. rewrite Ksto in Ez, E. apply E1 in Ez. apply E1 in E.
      destruct Ez as [[-> <-]|[_ Ez]]; [cbn in Kk; congruence|].
      destruct E as [[-> ->]|[_ E]]; [exact (A2 _ _ _ _ _ _ Ez Es (Hi _ He))|exact (A2 _ _ _ _ _ _ Ez E He)]. }
  assert (F2 : fr None st st2).
  { apply fr_then_kills; [|intros a Ha; left; exists s, y; destruct (HD _ Ha); auto].
    eapply fr_then_sto; eauto using fr_refl. }
  assert (NB : forall b o U, l_obj st b = Some o -> holds (o_c o) = Some U -> (rk s <= rk U)%Z -> ~ In b D).
  { intros b o U Eb Hb HU Hd. destruct (HD _ Hd) as [H1 _]. pose proof (A1 _ _ _ _ _ Es H1 Eb Hb). lia. }
  assert (NR : forall b o, l_obj st b = Some o -> is_ref (o_c o) = true -> ~ In b D).
  { intros b o Eb Rb Hd. destruct (HD _ Hd) as [H1 _]. destruct (wf_el _ _ W _ _ _ Es H1) as [o' [E' R']]. congruence. }
  assert (OWN : forall U, high rk (rk s) st2 U -> owned st2 U = true).
  { intros U [x [Ex Hx]]. rewrite Ksto in Ex. apply E1 in Ex.
    assert (Ex' : exists x', l_sto st U = Some x' /\ kind x' = kind x).
    { destruct Ex as [[-> ->]|[_ Ex]]; eauto. }
    destruct Ex' as [x' [Ex' Kx']]. pose proof (T _ _ Ex') as OU. revert OU. apply owned_ext.
    - intros b o Eb Hb. exists b, o. rewrite Kno. cbn. pose proof (wf_ob _ _ W _ _ Eb).
      split; auto. rewrite O2; auto. destruct (is_ref (o_c o)) eqn:Rb; [eauto|].
      destruct Hx as [Hx|Hx]; [eauto|]. exfalso. pose proof (holds_kind _ _ _ _ _ W Eb Rb Hb Ex') as Q.
      apply Q. rewrite Kx'. destruct x; cbn in Hx; [contradiction..|reflexivity].
    - intros z t p Ez. rewrite Ksto, Kns. split; [exact (wf_sb _ _ W _ _ Ez)|]. cbn. rewrite upd_ne; auto.
      intros ->. rewrite Es in Ez. injection Ez as ->. cbn in K3. congruence.
    - rewrite Kpin. apply incl_refl. }
  destruct (gc_high (l_ns st2) None rk (rk s) st2 W2 A3 OWN) as [G1 G2].
  exists (gc (l_ns st2) st2). split.
  { unfold lbind, set_sto. rewrite Es. reflexivity. }
  split; [split; [now apply gc_wf|eapply gc_tight; eauto]|].
  split; [eapply fr_trans; [exact F2|apply fr_gc]|].
  split; [eapply acyc_shrinks; [apply gc_shrinks|auto]|].
  assert (HS : high rk (rk s) st2 s). { exists y'. split; [rewrite Ksto; cbn; apply upd_eq|left; lia]. }
  split; [rewrite G1 by auto; rewrite Ksto; cbn; apply upd_eq|].
  assert (UP : forall b o U, l_obj st b = Some o -> holds (o_c o) = Some U -> (rk s <= rk U)%Z ->
    l_obj (gc (l_ns st2) st2) b = Some o).
  { intros b o U Eb Hb HU. rewrite G2; [rewrite O2; eauto|]. intros V x EV HV.
    exists x. split; auto. left. rewrite Ksto in EV. apply E1 in EV.
    destruct EV as [[-> ->]|[_ EV]]; [pose proof (A1 _ _ _ _ _ Es (Hi _ HV) Eb Hb)|pose proof (A1 _ _ _ _ _ EV HV Eb Hb)]; lia. }
  split.
  - intro Hr. constructor.
    + intros U x EU HU. assert (U <> s).
      { intros ->. destruct HU as [HU|HU]; [lia|]. rewrite Es in EU. injection EU as ->. destruct x; cbn in HU; auto. }
      rewrite G1; [rewrite Ksto; cbn; rewrite upd_ne; auto|]. exists x. split; [rewrite Ksto; cbn; rewrite upd_ne; auto|].
      destruct HU; [left; lia|auto].
    + intros b o Eb HB. exists (o_tok o). destruct HB as [HB|[U [HB HU]]].
      * rewrite gc_root; [rewrite O2; [destruct o; auto|eauto]|]. intros [V [x [EV HV]]]. rewrite Ksto in EV.
        assert (X : elem_of st b) by (apply E1e; exists V, x; auto). pose proof (elem_nonref _ _ _ _ W X Eb). congruence.
      * rewrite (UP b o U); auto; [destruct o; auto|lia].
    + intros b v k Eb Nv Nb. exists k. rewrite gc_root.
      * rewrite O2; auto. intro Hd. apply Nb. destruct (HD _ Hd). exists s, y. auto.
      * intros [V [x [EV HV]]]. rewrite Ksto in EV. apply Nb, E1e. exists V, x. auto.
  - intros b o Eb Hb. eapply UP; eauto. lia.
Qed.

(** ** Steps below a rank *)
Definition step (rk : nat -> Z) (r : Z) (st : lst) (rk' : nat -> Z) (st' : lst) : Prop :=
  ok st' /\ fr None st st' /\ acyc rk' st' /\ (forall T, T < l_ns st -> rk' T = rk T) /\ low rk r st st'.
Lemma step_refl rk r st : ok st -> acyc rk st -> step rk r st rk st.
Proof. intros H A. split; auto. split; [apply fr_refl|]. split; auto. split; auto. apply low_refl. Qed.
Lemma held_bound st b o T : wf None st -> l_obj st b = Some o -> holds (o_c o) = Some T -> T < l_ns st.
Proof.
  intros W Eb Hb. pose proof (wf_ct _ _ W _ _ Eb) as C.
  destruct (o_c o); cbn in Hb; try discriminate; injection Hb as ->.
  - destruct C as [? C]. eapply wf_sb; eauto.
  - destruct C as [? C]. eapply wf_sb; eauto.
  - destruct C as [? C]. eapply wf_sb; eauto.
  - destruct C as [? [? [? [C _]]]]. eapply wf_sb; eauto.
Qed.
Lemma step_trans rk r1 r st rk1 st1 rk2 st2 : ok st -> step rk r1 st rk1 st1 -> step rk1 r st1 rk2 st2 ->
  (r1 <= r)%Z -> step rk r st rk2 st2.
Proof.
  intros [W _] [O1 [F1 [A1 [K1 L1]]]] [O2 [F2 [A2 [K2 L2]]]] Hr.
  split; auto. split; [eapply fr_trans; eauto|]. split; auto. split.
  { intros T HT. rewrite K2; [auto|]. pose proof (fr_ns _ _ _ F1). lia. }
  constructor.
  - intros T x E H. apply (lw_sto _ _ _ _ L2).
    + apply (lw_sto _ _ _ _ L1); auto. destruct H; [left; lia|auto].
    + rewrite K1; auto. eapply wf_sb; eauto.
  - intros b o E H. destruct (lw_obj _ _ _ _ L1 b o E) as [k Ek].
    { destruct H as [H|[T [H1 H2]]]; [auto|right; exists T; split; auto; lia]. }
    destruct (lw_obj _ _ _ _ L2 b _ Ek) as [k' Ek']; [|cbn in Ek'; eauto].
    cbn. destruct H as [H|[T [H1 H2]]]; [auto|right; exists T; split; auto].
    rewrite K1; auto. eapply held_bound; eauto.
  - intros b v k E Nv Nb. destruct (lw_pl _ _ _ _ L1 b v k E Nv Nb) as [k1 E1].
    apply (lw_pl _ _ _ _ L2 b v k1 E1 Nv).
    destruct (fr_root _ _ _ F1 b _ (wf_ob _ _ W _ _ E) E Nb) as [o' [_ [N _]]]. exact N.
Qed.

Definition safe (st st' : lst) : Prop := ok st' /\ fr None st st'.

(** The element made in a list. *)
Lemma list_of_run st t o s l : l_obj st t = Some o -> o_c o = KList s -> l_sto st s = Some (SList l) ->
  list_of t st = (Ok (s, l), st).
Proof. intros E C S. unfold list_of, lbind, get_obj, get_sto. rewrite E, C, S. reflexivity. Qed.
Lemma map_of_run st t o s m : l_obj st t = Some o -> o_c o = KMap s -> l_sto st s = Some (SMap m) ->
  map_of t st = (Ok (s, m), st).
Proof. intros E C S. unfold map_of, lbind, get_obj, get_sto. rewrite E, C, S. reflexivity. Qed.

Lemma firstn_skipn_disjoint {A} (l : list A) n x : NoDup l -> In x (skipn n l) -> ~ In x (firstn n l).
Proof.
  intros ND H1 H2. rewrite <- (firstn_skipn n l) in ND. revert ND H1 H2.
  generalize (firstn n l) (skipn n l). intros a b. induction a as [|y a IH]; cbn; intros ND H1 H2; [auto|].
  inversion ND; subst. destruct H2 as [->|H2]; [|auto]. apply H3. apply in_or_app; auto.
Qed.
Lemma firstn_incl {A} (l : list A) n : incl (firstn n l) l.
Proof. intros x H. rewrite <- (firstn_skipn n l). apply in_or_app; auto. Qed.
Lemma skipn_incl {A} (l : list A) n : incl (skipn n l) l.
Proof. intros x H. rewrite <- (firstn_skipn n l). apply in_or_app; auto. Qed.
Lemma NoDup_firstn_l {A} (l : list A) n : NoDup l -> NoDup (firstn n l).
Proof.
  intro H. rewrite <- (firstn_skipn n l) in H. revert H. generalize (firstn n l) (skipn n l).
  intros a b. induction a as [|x a IH]; cbn; intro H; [constructor|]. inversion H; subst. constructor; auto.
  intro X. apply H2. apply in_or_app; auto.
Qed.

Lemma resize_spec rk r st s l n t o : ok st -> acyc rk st -> l_sto st s = Some (SList l) -> (rk s < r)%Z ->
  l_obj st t = Some o -> o_c o = KList s ->
  exists st' l', resize s l n st = (Ok tt, st') /\ step rk r st rk st' /\ l_sto st' s = Some (SList l') /\
    l_obj st' t = Some o.
Proof.
  intros H A Es Hr Et Ec. unfold resize. destruct (Nat.leb_spec (List.length l) (N.to_nat n)).
  - destruct (grow_spec rk r st s l (repeat (KPlain VNull) (N.to_nat n - List.length l)) H Es)
      as [st' [l' [E [O [F [Es' [_ [_ [_ [Ho [Ha Hl]]]]]]]]]]].
    { intros c Hc. apply repeat_spec in Hc. subst. exact I. }
    exists st', l'. split; auto. split; [|split; [auto|]].
    + split; auto. split; auto. split; [apply Ha; auto; intros c S Hc Hh; apply repeat_spec in Hc; subst; discriminate|].
      split; auto.
    + apply Ho; auto. intro Hi. destruct A as [A1 _]. assert (Hh : holds (o_c o) = Some s) by now rewrite Ec.
      pose proof (A1 _ _ _ _ _ Es Hi Et Hh). lia.
  - pose proof (wf_nd _ _ (proj1 H) _ _ Es) as ND. cbn in ND.
    destruct (remove_spec rk r st s (SList l) (SList (firstn (N.to_nat n) l)) (skipn (N.to_nat n) l) H A Es)
      as [st' [E [O [F [A' [Es' [L Ho]]]]]]]; cbn; auto; [apply firstn_incl|apply NoDup_firstn_l; auto|..].
    { intros d Hd. split; [eapply skipn_incl; eauto|apply firstn_skipn_disjoint; auto]. }
    exists st', (firstn (N.to_nat n) l). split; auto. split; [|split; auto].
    + split; auto.
    + apply Ho; auto. now rewrite Ec.
Qed.

Lemma list_slot_spec rk r st t o s i : ok st -> acyc rk st -> l_obj st t = Some o -> o_c o = KList s ->
  (rk s < r)%Z ->
  wp (list_slot t i) (fun u st' => step rk r st rk st' /\ l_obj st' t = Some o /\
    exists l', l_sto st' s = Some (SList l') /\ In u l') (safe st) st.
Proof.
  intros H A Et Ec Hr. pose proof (wf_ct _ _ (proj1 H) _ _ Et) as C. rewrite Ec in C. destruct C as [l Es].
  unfold list_slot. eapply wp_step; [eapply list_of_run; eauto|]. cbv beta iota.
  assert (X : forall st' l', step rk r st rk st' -> l_sto st' s = Some (SList l') -> l_obj st' t = Some o ->
    wp (dl sl' <- list_of t; match nth_elem (snd sl') i with Some u => lret u | None => lfail (Throw OutOfRange) end)
      (fun u st' => step rk r st rk st' /\ l_obj st' t = Some o /\
       exists l', l_sto st' s = Some (SList l') /\ In u l') (safe st) st').
  { intros st' l' S E' Et'. eapply wp_step; [eapply list_of_run; eauto|]. cbn [snd].
    destruct (nth_elem l' i) as [u|] eqn:En.
    - eapply wp_ok; [reflexivity|]. split; auto. split; auto. exists l'. split; auto. eapply nth_elem_In; eauto.
    - unfold wp, lfail. split; [apply S|apply S]. }
  destruct (N.ltb i (N.of_nat (List.length l))).
  - eapply wp_step; [reflexivity|]. eapply X; eauto. apply step_refl; auto.
  - destruct (resize_spec rk r st s l ((i + 1) mod 2 ^ 32) t o H A Es Hr Et Ec) as [st' [l' [E [S [Es' Et']]]]].
    eapply wp_step; [exact E|]. eapply X; eauto.
Qed.

Lemma map_slot_spec rk r st t o s k : ok st -> acyc rk st -> l_obj st t = Some o -> o_c o = KMap s ->
  (rk s < r)%Z ->
  wp (map_slot t k) (fun u st' => step rk r st rk st' /\ l_obj st' t = Some o /\
    exists m', l_sto st' s = Some (SMap m') /\ In u (map snd m')) (safe st) st.
Proof.
  intros H A Et Ec Hr. pose proof H as [W T]. pose proof A as [A1 A2].
  pose proof (wf_ct _ _ W _ _ Et) as C. rewrite Ec in C. destruct C as [m Es].
  unfold map_slot. eapply wp_step; [eapply map_of_run; eauto|]. cbv beta iota.
  destruct (find_key m k) as [u|] eqn:Ef.
  { eapply wp_ok; [reflexivity|]. split; [apply step_refl; auto|]. split; auto. exists m. split; auto.
    eapply find_key_In; eauto. }
  set (u := l_no st). set (st1 := add_obj st (KPlain VNull)).
  apply (wp_step _ _ _ _ _ u st1); [reflexivity|].
  assert (W1 : wf None st1) by (apply wf_add_obj; auto; exact I).
  assert (F1 : fr None st st1) by (eapply fr_then_add_obj; eauto using fr_refl).
  assert (Es1 : l_sto st1 s = Some (SMap m)) by exact Es.
  set (st2 := set_stos st1 (upd (l_sto st1) s (Some (SMap (m ++ [(k, u)]))))).
  assert (E2 : set_sto s (SMap (m ++ [(k, u)])) st1 = (Ok tt, st2)). { unfold set_sto. now rewrite Es1. }
  assert (Nu : ~ elem_of st1 u).
  { intros [z [y [Ez Hi]]]. cbn in Ez. destruct (wf_el _ _ W _ _ _ Ez Hi) as [ou [Eu _]].
    pose proof (wf_ob _ _ W _ _ Eu). unfold u in *. lia. }
  assert (HE : forall e, In e (elems (SMap (m ++ [(k, u)]))) -> In e (elems (SMap m)) \/ e = u).
  { cbn. intros e He. rewrite map_app in He. apply in_app_or in He. cbn in He. destruct He as [He|[He|[]]]; auto. }
  assert (W2 : wf None st2).
  { eapply wf_set_sto; eauto.
    - cbn. rewrite map_app. cbn. apply NoDup_app_iff_local.
      + exact (wf_nd _ _ W _ _ Es).
      + constructor; [intros []|constructor].
      + intros x Hx [<-|[]]. apply Nu. exists s, (SMap m). auto.
    - intros e He. apply HE in He. destruct He as [He| ->].
      + split; auto. eapply (wf_el _ _ W1); eauto.
      + split; auto. exists (Obj (KPlain VNull) None). split; auto. cbn. apply upd_eq. }
  assert (F2 : fr None st st2).
  { eapply fr_then_sto; eauto. intros e He. apply HE in He. destruct He as [He| ->]; auto. }
  assert (O2 : forall b o, l_obj st b = Some o -> l_obj st2 b = Some o).
  { intros b ob Eb. cbn. rewrite upd_ne; auto. pose proof (wf_ob _ _ W _ _ Eb). lia. }
  assert (ES : forall z y, l_sto st2 z = Some y -> (z = s /\ y = SMap (m ++ [(k, u)])) \/ (z <> s /\ l_sto st z = Some y)).
  { intros z y. cbn. unfold upd. destruct (Nat.eqb_spec z s); intro E; [left; split; congruence|right; auto]. }
  assert (T2 : tight st2).
  { intros z y Ez. assert (Ez' : exists y', l_sto st z = Some y').
    { apply ES in Ez. destruct Ez as [[-> _]|[_ Ez]]; eauto. }
    destruct Ez' as [y' Ez']. pose proof (T _ _ Ez') as OU. revert OU. apply owned_ext.
    - intros b ob Eb Hb. exists b, ob. split; auto. cbn. pose proof (wf_ob _ _ W _ _ Eb). lia.
    - intros w t' p Ew. split; [cbn; eapply wf_sb; eauto|]. cbn. rewrite upd_ne; auto. congruence.
    - apply incl_refl. }
  assert (A3 : acyc rk st2).
  { split.
    - intros U x e oe S E He Eo Eh. cbn in Eo. unfold upd in Eo. destruct (Nat.eqb_spec e (l_no st)).
      { injection Eo as <-. discriminate. }
      apply ES in E. destruct E as [[-> ->]|[_ E]]; [|exact (A1 _ _ _ _ _ E He Eo Eh)].
      apply HE in He. destruct He as [He|He]; [|contradiction]. exact (A1 _ _ _ _ _ Es He Eo Eh).
    - intros z t' S p U x Ez E He. apply ES in Ez. destruct Ez as [[_ Ez]|[_ Ez]]; [discriminate|].
      apply ES in E. destruct E as [[-> ->]|[_ E]]; [|exact (A2 _ _ _ _ _ _ Ez E He)].
      apply HE in He. destruct He as [He| ->]; [exact (A2 _ _ _ _ _ _ Ez Es He)|].
      pose proof (wf_px _ _ W _ _ _ _ Ez). unfold u in *. lia. }
  eapply wp_step; [exact E2|]. eapply wp_ok; [reflexivity|]. split; [|split; [auto|]].
  - split; [split; auto|]. split; auto. split; auto. split; auto. constructor.
    + intros U x E HU. cbn. rewrite upd_ne; auto. intros ->. rewrite Es in E. injection E as <-.
      destruct HU as [HU|HU]; [lia|exact HU].
    + intros b ob Eb _. exists (o_tok ob). rewrite (O2 _ _ Eb). destruct ob; auto.
    + intros b v kb Eb _ _. exists kb. auto.
  - exists (m ++ [(k, u)]). split; [cbn; apply upd_eq|]. rewrite map_app. apply in_or_app. right. now left.
Qed.

(** The element made in an object. *)
Definition inside (rk : nat -> Z) (r : Z) (st : lst) (t u : nat) : Prop :=
  exists o s y, l_obj st t = Some o /\ is_ref (o_c o) = false /\ holds (o_c o) = Some s /\ (rk s < r)%Z /\
    l_sto st s = Some y /\ In u (elems y).

Lemma init_step c x rk r st t o : empty_of c x -> ok st -> acyc rk st -> l_obj st t = Some o ->
  o_c o = KPlain VNull ->
  exists st' rk', (destroy t >>> lbind (new_sto x) (fun s => set_content t (c s))) st = (Ok tt, st') /\
    step rk r st rk' st' /\ l_obj st' t = Some (Obj (c (l_ns st)) (o_tok o)) /\
    l_sto st' (l_ns st) = Some x /\ (rk' (l_ns st) < r)%Z.
Proof.
  intros Hc H A Et Ec.
  destruct (init_sto_spec c x rk r st t o Hc H A Et) as [st' [rk' [E [O [A' [F [Et' [Es' [K [Kr [Ho [Hs _]]]]]]]]]]]].
  { now rewrite Ec. }
  assert (Hn : holds (o_c o) = None) by now rewrite Ec.
  exists st', rk'. split; auto. split; [|auto].
  split; auto. split; auto. split; auto. split; auto. constructor.
  - intros T y E1 _. rewrite (Hs Hn); auto. eapply (wf_sb _ _ (proj1 H)); eauto.
  - intros b ob Eb HB. exists (o_tok ob). rewrite (Ho Hn); [destruct ob; auto|]. intros ->.
    rewrite Et in Eb. injection Eb as <-. rewrite Ec in HB. destruct HB as [HB|[T [HB _]]]; discriminate.
  - intros b v k Eb Nv _. exists k. rewrite (Ho Hn); auto. intros ->. rewrite Et in Eb. injection Eb as ->.
    cbn in Ec. rewrite Ec in Nv. contradiction.
Qed.

Lemma slot_spec rk r st t o e : ok st -> acyc rk st -> l_obj st t = Some o -> is_ref (o_c o) = false ->
  (forall s, holds (o_c o) = Some s -> (rk s < r)%Z) ->
  wp (slot t e) (fun u st' => exists rk', step rk r st rk' st' /\ inside rk' r st' t u) (safe st) st.
Proof.
  intros H A Et Er Hr. pose proof (not_none _ _ _ _ (proj1 H) Et) as NN.
  assert (TH : forall x, wp (lfail (Throw x)) (fun (u : nat) st' => exists rk', step rk r st rk' st' /\ inside rk' r st' t u) (safe st) st).
  { intro x. unfold wp, lfail. split; [auto|apply fr_refl]. }
  unfold slot. eapply wp_step; [unfold get_obj; rewrite Et; reflexivity|].
  assert (LS : forall st0 rk0 o0 s i, step rk r st rk0 st0 -> l_obj st0 t = Some o0 -> o_c o0 = KList s -> (rk0 s < r)%Z ->
    wp (list_slot t i) (fun u st' => exists rk', step rk r st rk' st' /\ inside rk' r st' t u) (safe st) st0).
  { intros st0 rk0 o0 s i S0 E0 C0 R0. destruct S0 as [O0 [F0 [A0 S0']]] eqn:ES0.
    eapply wp_mono; [eapply (list_slot_spec rk0 r st0 t o0 s i); auto| |].
    - intros u st' [S' [E' [l' [El Hi]]]]. exists rk0. split.
      + eapply (step_trans rk r r st rk0 st0 rk0 st'); auto. lia.
      + exists o0, s, (SList l'). rewrite C0. cbn. auto 10.
    - intros st' [O' F']. split; auto. eapply fr_trans; eauto. }
  assert (MS : forall st0 rk0 o0 s k, step rk r st rk0 st0 -> l_obj st0 t = Some o0 -> o_c o0 = KMap s -> (rk0 s < r)%Z ->
    wp (map_slot t k) (fun u st' => exists rk', step rk r st rk' st' /\ inside rk' r st' t u) (safe st) st0).
  { intros st0 rk0 o0 s k S0 E0 C0 R0. destruct S0 as [O0 [F0 [A0 S0']]] eqn:ES0.
    eapply wp_mono; [eapply (map_slot_spec rk0 r st0 t o0 s k); auto| |].
    - intros u st' [S' [E' [m' [El Hi]]]]. exists rk0. split.
      + eapply (step_trans rk r r st rk0 st0 rk0 st'); auto. lia.
      + exists o0, s, (SMap m'). rewrite C0. cbn. auto 10.
    - intros st' [O' F']. split; auto. eapply fr_trans; eauto. }
  pose proof (step_refl rk r st H A) as SR.
  destruct (o_c o) as [b|v|s|s|s|s|s] eqn:Ec; try discriminate.
  - exfalso; eapply (NN ltac:(discriminate)); eauto.
  - destruct v; try (destruct e; apply TH). destruct e as [k|i].
    + destruct (init_step KMap (SMap []) rk r st t o empty_map H A Et Ec) as [st' [rk' [E [S [Et' [Es' R']]]]]].
      eapply wp_step; [exact E|]. eapply MS; eauto. reflexivity.
    + destruct (init_step KList (SList []) rk r st t o empty_list H A Et Ec) as [st' [rk' [E [S [Et' [Es' R']]]]]].
      eapply wp_step; [exact E|]. eapply LS; eauto. reflexivity.
  - destruct e; apply TH.
  - destruct e; [apply TH|]. eapply LS; eauto.
  - destruct e; [|apply TH]. eapply MS; eauto.
Qed.

(** GetPathRef. *)
Lemma get_path_ref_spec p : forall rk r st t o, ok st -> acyc rk st -> l_obj st t = Some o ->
  is_ref (o_c o) = false -> (forall s, holds (o_c o) = Some s -> (rk s < r)%Z) ->
  wp (get_path_ref t p) (fun u st' => exists rk', step rk r st rk' st' /\ down st' t u /\
    (exists ot, l_obj st' t = Some ot /\ is_ref (o_c ot) = false)) (safe st) st.
Proof.
  induction p as [|e p IH]; intros rk r st t o H A Et Er Hr.
  - cbn. exists rk. split; [apply step_refl; auto|]. split; [constructor|eauto].
  - cbn [get_path_ref].
    assert (NEXT : forall st1 rk1 u, step rk r st rk1 st1 -> inside rk1 r st1 t u ->
      wp (get_path_ref u p) (fun u st' => exists rk', step rk r st rk' st' /\ down st' t u /\
        (exists ot, l_obj st' t = Some ot /\ is_ref (o_c ot) = false)) (safe st) st1).
    { intros st1 rk1 u S1 [o1 [s [y [E1 [R1 [Hh [Hs [Es Hi]]]]]]]]. pose proof S1 as [O1 [F1 [A1 [K1 L1]]]].
      destruct (wf_el _ _ (proj1 O1) _ _ _ Es Hi) as [ou [Eu Ru]].
      eapply wp_mono; [eapply (IH rk1 (rk1 s) st1 u ou); auto; intros S HS; exact (proj1 A1 _ _ _ _ _ Es Hi Eu HS)| |].
      - intros w st2 [rk2 [S2 [D2 Hw]]]. exists rk2. split.
        + eapply (step_trans rk r r st rk1 st1 rk2 st2); auto; [|lia].
          destruct S2 as [O2 [F2 [A2 [K2 L2]]]]. split; auto. split; auto. split; auto. split; auto.
          constructor; [intros U x E HU; apply (lw_sto _ _ _ _ L2); auto; destruct HU; [left; lia|auto]| |apply L2].
          intros b ob Eb HB. apply (lw_obj _ _ _ _ L2); auto. destruct HB as [HB|[U [H1 H2]]]; [auto|].
          right. exists U. split; auto. lia.
        + destruct S2 as [O2 [F2 [A2 [K2 L2]]]].
          destruct (lw_obj _ _ _ _ L2 t o1 E1) as [k Ek]; [right; exists s; split; auto; lia|].
          split; [|eexists; split; [exact Ek|exact R1]].
          eapply down_trans; [|exact D2]. eapply down_step; [apply down_refl|exact Ek|exact Hh| |exact Hi].
          apply (lw_sto _ _ _ _ L2); auto. left. lia.
      - intros st' [O' F']. split; auto. eapply fr_trans; eauto.
      }
    apply wp_bind. 
    destruct (get_elem_spec st t o e false (proj1 H) Et Er) as [[x Ex]|[[_ Ex]|[u [s [y [Ex [Hh [Es Hi]]]]]]]].
    + unfold wp. rewrite Ex. split; auto. apply fr_refl.
    + unfold wp at 1. rewrite Ex. apply wp_bind. eapply wp_mono; [eapply (slot_spec rk r st t o e); auto| |auto].
      intros u st1 [rk1 [S1 I1]]. eapply NEXT; eauto.
    + unfold wp at 1. rewrite Ex. eapply wp_step; [reflexivity|]. eapply (NEXT st rk); [apply step_refl; auto|].
      exists o, s, y. auto 10.
Qed.
