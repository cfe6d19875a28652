(** Proofs about Life.v: using references, and the operations of a program. *)
From Coq Require Import Lia ZArith.
From Verif Require Import Base Float Value Path Life LifeProofs LifeSafe LifeRefs LifeGrow LifeSlots.
Open Scope nat_scope.

Definition acyclic (st : lst) : Prop := exists rk, acyc rk st.
Definition fine (st st' : lst) : Prop := ok st' /\ fr None st st' /\ pl st st' /\ acyclic st'.
Definition ordinary (st : lst) (t : nat) : Prop := exists o, l_obj st t = Some o /\ is_ref (o_c o) = false.
(** A variable or temporary: not an element of a list or map. *)
Definition client (st : lst) (a : nat) : Prop := (exists o, l_obj st a = Some o) /\ ~ elem_of st a.

Lemma pl_refl st : pl st st.
Proof. intros b c k E _ _. eauto. Qed.
Lemma fine_refl rk st : ok st -> acyc rk st -> fine st st.
Proof. intros H A. split; auto. split; [apply fr_refl|]. split; [apply pl_refl|exists rk; auto]. Qed.
Lemma safe_refl st : ok st -> safe st st.
Proof. intro H. split; auto. apply fr_refl. Qed.
Lemma safe_trans a b c : safe a b -> safe b c -> safe a c.
Proof. intros [_ F1] [O F2]. split; auto. eapply fr_trans; eauto. Qed.
Lemma fine_safe st st' : fine st st' -> safe st st'.
Proof. intros [H [F _]]. split; auto. Qed.
Lemma client_fr st st' a : ok st -> fr None st st' -> client st a -> client st' a.
Proof.
  intros [W _] F [[o E] N]. destruct (fr_root _ _ _ F a o (wf_ob _ _ W _ _ E) E N) as [o' [E' [N' _]]].
  split; eauto.
Qed.

(** ** Making references *)

Lemma check_ref_spec st o t : linked st o t -> wf None st ->
  (check_ref o st = (Throw InvalidReferenceError, st) /\ l_obj st t = None) \/
  (check_ref o st = (Ok tt, st) /\ ordinary st t).
Proof.
  intros [_ [k [Ek [H1 H2]]]] W. unfold check_ref. rewrite Ek. destruct (l_tok st k) eqn:El.
  - right. split; auto. destruct (H1 eq_refl) as [ot Et]. exists ot. split; auto. now apply H2.
  - left. split; auto. destruct (l_obj st t) as [ot|] eqn:Et; auto. exfalso.
    destruct (H2 _ eq_refl) as [Rt Kt]. pose proof (wf_tv _ _ W _ _ _ Et Rt Kt). congruence.
Qed.

(** MakeRef into a new object or a reference. *)
Lemma make_ref_spec rk st src os a oa : ok st -> acyc rk st -> l_obj st src = Some os ->
  l_obj st a = Some oa -> holds (o_c oa) = None -> (is_ref (o_c oa) = true \/ (src <> a /\ o_tok oa = None)) ->
  ~ elem_of st a ->
  wp (make_ref src a) (fun _ st' => ok st' /\ fr (oldref a oa) st st' /\ acyc rk st')
     (fun st' => st' = st) st.
Proof.
  intros H A Es Ea Hh Ht Na. pose proof H as [W T].
  assert (Ht' : is_ref (o_c oa) = true \/ o_tok oa = None) by tauto.
  unfold make_ref. eapply wp_step; [unfold get_obj; rewrite Es; reflexivity|].
  pose proof (wf_ct _ _ W _ _ Es) as C.
  assert (RI : forall t ot, t <> a -> l_obj st t = Some ot -> is_ref (o_c ot) = false ->
    wp (ref_init a t) (fun _ st' => ok st' /\ fr (oldref a oa) st st' /\ acyc rk st') (fun st' => st' = st) st).
  { intros t ot Nt Et Rt. destruct (ref_init_simple rk st a oa t ot H A Ea Hh Ht' Na Nt Et Rt)
      as [st' [k [E [O [A' [F _]]]]]]. eapply wp_ok; [exact E|]. auto. }
  assert (NA : forall t ot, l_obj st t = Some ot -> is_ref (o_c ot) = false -> t <> a \/ is_ref (o_c oa) = false).
  { intros t ot Et Rt. destruct (Nat.eq_dec t a); [right; congruence|auto]. }
  destruct (o_c os) as [b|v|s|s|s|t|z] eqn:Ec.
  - discriminate C.
  - eapply RI; [|exact Es|now rewrite Ec]. intros ->. destruct Ht as [Ht|[Ht _]]; [|auto]. rewrite Ea in Es.
    injection Es as ->. rewrite Ec in Ht. discriminate.
  - eapply RI; [|exact Es|now rewrite Ec]. intros ->. destruct Ht as [Ht|[Ht _]]; [|auto]. rewrite Ea in Es.
    injection Es as ->. rewrite Ec in Ht. discriminate.
  - eapply RI; [|exact Es|now rewrite Ec]. intros ->. destruct Ht as [Ht|[Ht _]]; [|auto]. rewrite Ea in Es.
    injection Es as ->. rewrite Ec in Ht. discriminate.
  - eapply RI; [|exact Es|now rewrite Ec]. intros ->. destruct Ht as [Ht|[Ht _]]; [|auto]. rewrite Ea in Es.
    injection Es as ->. rewrite Ec in Ht. discriminate.
  - destruct (check_ref_spec _ _ _ C W) as [[E _]|[E [ot [Et Rt]]]].
    + unfold wp, lbind. rewrite E. reflexivity.
    + eapply wp_step; [exact E|].
      destruct (Nat.eq_dec t a) as [->|N]; [|eapply RI; eauto].
      (* the target is the new object itself: excluded, as its RefData is missing *)
      exfalso. destruct Ht' as [Ht'|Ht']; [congruence|]. destruct C as [_ [k [_ [_ C]]]].
      destruct (C _ Ea) as [_ C']. congruence.
  - destruct C as [t [keep [p [Ez Hl]]]].
    destruct (check_ref_spec _ _ _ Hl W) as [[E _]|[E [ot [Et Rt]]]].
    + unfold wp, lbind. rewrite E. reflexivity.
    + eapply wp_step; [exact E|]. eapply wp_step; [unfold get_sto; rewrite Ez; reflexivity|]. cbv beta iota.
      assert (N : t <> a).
      { intros ->. destruct Ht' as [Ht'|Ht']; [congruence|]. destruct Hl as [_ [k [_ [_ C]]]].
        destruct (C _ Ea) as [_ C']. congruence. }
      destruct (proxy_init_simple rk st a oa t ot (proxy_path z) p H A Ea Hh Ht' Na N Et Rt)
        as [st' [E' [O [A' [F _]]]]].
      { intros st' Hs. unfold proxy_path, lbind, get_sto. rewrite Hs, Ez. reflexivity. }
      eapply wp_ok; [exact E'|]. auto.
Qed.

(** ** Using references *)

Definition resolved (st : lst) (a : nat) : Prop :=
  exists u ou k, l_obj st a = Some (Obj (KRef u) (Some k)) /\ l_tok st k = true /\
    l_obj st u = Some ou /\ is_ref (o_c ou) = false.

Lemma proxy_resolve_spec rk st a o z m : ok st -> acyc rk st -> l_obj st a = Some o -> o_c o = KProxy z ->
  wp (proxy_resolve a m) (fun b st' => if b then fine st st' /\ resolved st' a /\
        (m <> RCreate -> forall b ob, b <> a -> ~ elem_of st b -> l_obj st b = Some ob -> o_tok ob = None ->
           l_obj st' b = Some ob)
      else m = RCheck /\ st' = st /\ forall t keep p, l_sto st z = Some (SProxy t keep p) -> ordinary st t)
     (safe st) st.
Proof.
  intros H A Ea Ec. pose proof H as [W T]. unfold proxy_resolve.
  eapply wp_step; [unfold get_obj; rewrite Ea; reflexivity|]. rewrite Ec.
  pose proof (wf_ct _ _ W _ _ Ea) as C. rewrite Ec in C. destruct C as [t [keep [p [Ez Hl]]]].
  destruct (check_ref_spec _ _ _ Hl W) as [[E _]|[E [ot [Et Rt]]]].
  { unfold wp, lbind. rewrite E. apply safe_refl; auto. }
  eapply wp_step; [exact E|]. eapply wp_step; [unfold get_sto; rewrite Ez; reflexivity|]. cbv beta iota.
  set (Q := fun (b : bool) st' => if b then fine st st' /\ resolved st' a /\
        (m <> RCreate -> forall b ob, b <> a -> ~ elem_of st b -> l_obj st b = Some ob -> o_tok ob = None ->
           l_obj st' b = Some ob)
      else m = RCheck /\ st' = st /\ forall t keep p, l_sto st z = Some (SProxy t keep p) -> ordinary st t).
  (* the end, from a state where [u] was found *)
  assert (FIN : forall st1 rk1 u ot1, fine st st1 -> acyc rk1 st1 ->
     (exists k1, l_obj st1 a = Some (Obj (KProxy z) k1)) -> l_sto st1 z = Some (SProxy t keep p) ->
     l_obj st1 t = Some ot1 -> is_ref (o_c ot1) = false -> down st1 t u -> (m <> RCreate -> st1 = st) ->
     wp (make_ref u a >>> lret true) Q (safe st) st1).
  { intros st1 rk1 u ot1 [O1 [F1 [P1 _]]] A1 [k1 Ea1] Ez1 Et1 Rt1 D HM.
    destruct (down_nonref _ _ _ _ _ (proj1 O1) Et1 Rt1 D) as [ou [Eu Ru]].
    destruct (ref_init_proxy rk1 st1 a _ z t ot1 keep p u O1 A1 Ea1 eq_refl Ez1 Et1 Rt1 D)
      as [st2 [k [E2 [O2 [A2 [F2 [P2 [Ra [Kk [[ou' [Eu' [Eu2 Ru']]] RT]]]]]]]]]].
    assert (EM : make_ref u a st1 = ref_init a u st1).
    { unfold make_ref, lbind, get_obj. rewrite Eu.
      pose proof (not_none _ _ _ _ (proj1 O1) Eu ltac:(discriminate)) as NN.
      destruct (o_c ou); try reflexivity; try discriminate. exfalso; eapply NN; eauto. }
    eapply wp_step; [rewrite EM; exact E2|]. eapply wp_ok; [reflexivity|]. unfold Q. split; [|split].
    - split; auto. split; [eapply fr_trans; eauto|]. split; [|exists rk1; auto].
      intros b c kb Eb Sb Nb. destruct (P1 b c kb Eb Sb Nb) as [k' Ek'].
      apply (P2 b c k' Ek' Sb).
      destruct (fr_root _ _ _ F1 b _ (wf_ob _ _ W _ _ Eb) Eb Nb) as [o' [_ [N _]]]. exact N.
    - exists u, (Obj (o_c ou') (Some k)), k. auto.
    - intros Hm b ob Nb Hb Eb Kb. rewrite (HM Hm) in *. rewrite RT; auto; [|congruence].
      intros ->. (* [b] has no RefData, [t] has, and what lies below it is an element *)
      inversion D; subst.
      + destruct Hl as [_ [k' [_ [_ Hl]]]]. destruct (Hl _ Eb) as [_ Kt]. congruence.
      + apply Hb. eexists _, _. eauto. }
  assert (CONST : forall c, (c = false -> m = RCheck) -> wp (dl r <- get_path_const t p c;
      match r with Some u => make_ref u a >>> lret true
                 | None => match m with RCheck => lret false | _ => lfail UB end end)
      Q (safe st) st).
  { intros c Hc.
    destruct (get_path_const_spec p c st t ot W Et Rt) as [[x Ex]|[[-> Ex]|[u [Ex D]]]].
    - unfold wp, lbind. rewrite Ex. apply safe_refl; auto.
    - eapply wp_step; [exact Ex|]. rewrite (Hc eq_refl). eapply wp_ok; [reflexivity|]. unfold Q. split; auto. split; auto.
      intros t' keep' p' E'. rewrite Ez in E'. injection E' as <- <- <-. exists ot. auto.
    - eapply wp_step; [exact Ex|]. eapply FIN; eauto using fine_refl. exists (o_tok o). rewrite Ea.
      destruct o; cbn in Ec; subst; auto. }
  destruct m.
  - apply (CONST false). auto.
  - apply (CONST true). discriminate.
  - apply wp_bind. apply wp_bind.
    assert (HR : exists r, forall s, holds (o_c ot) = Some s -> (rk s < r)%Z).
    { destruct (holds (o_c ot)) as [s|]; [|exists 0%Z; discriminate]. exists (rk s + 1)%Z. intros s' E'. injection E' as <-. lia. }
    destruct HR as [r HR].
    eapply wp_mono; [eapply (get_path_ref_spec p rk r st t ot); auto| |auto].
    intros u st1 [rk1 [[O1 [F1 [A1 [K1 L1]]]] [D1 [ot1 [Et1 Rt1]]]]]. eapply wp_ok; [reflexivity|]. cbv beta iota.
    eapply (FIN st1 rk1); eauto.
    + split; auto. split; auto. split; [apply L1|exists rk1; auto].
    + destruct (lw_obj _ _ _ _ L1 a o Ea) as [k1 E1]; [left; now rewrite Ec|]. rewrite Ec in E1. eauto.
    + apply (lw_sto _ _ _ _ L1); auto. right. exact I.
    + intro X. exfalso. apply X. reflexivity.
Qed.

Lemma target_spec st o t : linked st o t -> wf None st ->
  (target o t st = (Throw InvalidReferenceError, st) /\ l_obj st t = None) \/
  (target o t st = (Ok t, st) /\ ordinary st t).
Proof.
  intros Hl W. unfold target, lbind. destruct (check_ref_spec _ _ _ Hl W) as [[-> ?]|[-> [ot [Et Rt]]]]; [auto|right].
  unfold get_obj. rewrite Et, Rt. split; [reflexivity|exists ot; auto].
Qed.

Lemma reach_spec rk st a o m : ok st -> acyc rk st -> l_obj st a = Some o ->
  (m <> RCheck \/ forall z, o_c o <> KProxy z) ->
  wp (reach m a) (fun t st' => fine st st' /\ ordinary st' t /\
      (is_ref (o_c o) = false -> t = a) /\ ((forall z, o_c o <> KProxy z) -> st' = st) /\
      (exists o', l_obj st' a = Some o' /\ forall z, o_c o' <> KProxy z)) (safe st) st.
Proof.
  intros H A Ea Hm. pose proof H as [W T]. unfold reach.
  eapply wp_step; [unfold get_obj; rewrite Ea; reflexivity|].
  pose proof (wf_ct _ _ W _ _ Ea) as C.
  assert (SELF : is_ref (o_c o) = false -> wp (lret a) (fun t st' => fine st st' /\ ordinary st' t /\
      (is_ref (o_c o) = false -> t = a) /\ ((forall z, o_c o <> KProxy z) -> st' = st) /\
      (exists o', l_obj st' a = Some o' /\ forall z, o_c o' <> KProxy z)) (safe st) st).
  { intro R. eapply wp_ok; [reflexivity|]. split; [eapply fine_refl; eauto|]. split; [exists o; auto|].
    split; auto. split; auto. exists o. split; auto. intros z E. rewrite E in R. discriminate. }
  destruct (o_c o) as [b|v|s|s|s|t|z] eqn:Ec; try (apply SELF; reflexivity).
  - discriminate C.
  - destruct (target_spec _ _ _ C W) as [[E _]|[E Ht]]; unfold wp; rewrite E; [apply safe_refl; auto|].
    split; [eapply fine_refl; eauto|]. split; auto. split; [discriminate|]. split; auto.
    exists o. split; auto. rewrite Ec. discriminate.
  - destruct Hm as [Hm|Hm]; [|exfalso; eapply Hm; eauto].
    apply wp_bind. eapply wp_mono; [eapply (proxy_resolve_spec rk st a o z m); auto| |auto].
    intros b st1 Hb. cbv beta. destruct b; [|exfalso; apply Hm; apply Hb].
    destruct Hb as [HF [[u [ou [k [Ea1 [Kk [Eu Ru]]]]]] _]].
    eapply wp_step; [unfold get_obj; rewrite Ea1; reflexivity|]. cbn [o_c].
    assert (E : target (Obj (KRef u) (Some k)) u st1 = (Ok u, st1)).
    { unfold target, lbind, check_ref, get_obj. cbn [o_tok]. rewrite Kk, Eu, Ru. reflexivity. }
    eapply wp_ok; [exact E|]. split; auto. split; [exists ou; auto|]. split; [discriminate|].
    split; [intro X; exfalso; eapply X; eauto|]. eexists. split; [exact Ea1|]. discriminate.
Qed.

(** ** Variables and temporaries *)

Lemma tight_add_obj st c : wf None st -> tight st -> tight (add_obj st c).
Proof.
  intros W T s x E. specialize (T _ _ E). revert T. apply owned_ext; cbn.
  - intros b ob Eb Hb. exists b, ob. pose proof (wf_ob _ _ W _ _ Eb). split; [lia|]. split; auto.
    rewrite upd_ne; auto. lia.
  - intros z t p Ez. split; auto. exact (wf_sb _ _ W _ _ Ez).
  - apply incl_refl.
Qed.
Lemma new_spec rk st c : ok st -> acyc rk st -> cvalid st c ->
  ok (add_obj st c) /\ fr None st (add_obj st c) /\ acyc rk (add_obj st c) /\
  l_obj (add_obj st c) (l_no st) = Some (Obj c None) /\ ~ elem_of (add_obj st c) (l_no st).
Proof.
  intros [W T] A V. split; [split; [apply wf_add_obj; auto|apply tight_add_obj; auto]|].
  split; [eapply fr_then_add_obj; eauto using fr_refl|]. 
  assert (N : ~ elem_of (add_obj st c) (l_no st)).
  { intros [z [y [Ez Hi]]]. cbn in Ez. destruct (wf_el _ _ W _ _ _ Ez Hi) as [o [E _]].
    pose proof (wf_ob _ _ W _ _ E). lia. }
  split; [|split; [cbn; apply upd_eq|exact N]].
  destruct A as [A1 A2]. split; cbn; [|exact A2]. intros U x e o S E He Eo Eh. unfold upd in Eo.
  destruct (Nat.eqb_spec e (l_no st)); [|exact (A1 _ _ _ _ _ E He Eo Eh)].
  exfalso. apply N. subst. exists U, x. auto.
Qed.

Lemma destruct_spec st a : ok st -> client st a ->
  exists st', destruct_obj a st = (Ok tt, st') /\ ok st' /\
    (forall st0, fr None st0 st -> l_no st0 <= a -> fr None st0 st') /\
    (forall b, b <> a -> client st b -> client st' b) /\
    l_obj st' a = None /\ (forall b, l_obj st b = None -> l_obj st' b = None) /\
    (forall b, b <> a -> ~ elem_of st b -> l_obj st' b = l_obj st b).
Proof.
  intros [W T] [[o Ea] Na]. set (st1 := kill_obj st a).
  assert (W1 : wf None st1).
  { apply (wf_kills None st [a] W). intros b [<-|[]]. exact Na. }
  exists (gc (l_ns st1) st1). split; [unfold destruct_obj; rewrite Ea; reflexivity|].
  split; [split; [now apply gc_wf|eapply gc_tight; eauto]|].
  assert (K1 : forall b, l_obj st1 b = if mem b [a] then None else l_obj st b).
  { intro b. change st1 with (fold_left kill_obj [a] st). apply kills_obj. }
  assert (D1 : forall b, l_obj st1 b = None -> l_obj (gc (l_ns st1) st1) b = None).
  { intros b Eb. destruct (sh_obj _ _ (gc_shrinks (l_ns st1) st1) b) as [X|X]; congruence. }
  split; [|split; [|split; [|split]]].
  3: { apply D1. rewrite K1. replace (mem a [a]) with true; auto. symmetry. apply mem_In. now left. }
  3: { intros b Eb. apply D1. rewrite K1, Eb. now destruct (mem b [a]). }
  3: { intros b Nb Hb. rewrite gc_root.
       - rewrite K1. replace (mem b [a]) with false; auto. symmetry. apply mem_not. intros [<-|[]]. auto.
       - intros [z [y [Ez Hi]]]. assert (Es : l_sto st1 = l_sto st). { kr [a] st. exact Ksto. }
         rewrite Es in Ez. apply Hb. exists z, y. auto. }
  - intros st0 F Ha. eapply fr_trans; [|apply fr_gc]. apply (fr_then_kills None st0 st [a] F).
    intros b [<-|[]]. auto.
  - intros b Nb [[ob Eb] Hb].
    assert (Es : l_sto st1 = l_sto st). { kr [a] st. exact Ksto. }
    assert (Eb1 : l_obj st1 b = Some ob).
    { change st1 with (fold_left kill_obj [a] st). rewrite kills_obj.
      replace (mem b [a]) with false; auto. symmetry. apply mem_not. intros [<-|[]]. auto. }
    assert (N1 : ~ elem_of st1 b). { intros [z [y [Ez Hi]]]. rewrite Es in Ez. apply Hb. exists z, y. auto. }
    split; [exists ob; rewrite gc_root; auto|].
    intro X. apply N1. eapply shrinks_elem; [apply gc_shrinks|exact X].
Qed.

Lemma fr_new st st0 st1 r : fr None st st0 -> fr (Some r) st0 st1 -> l_no st <= r -> fr None st st1.
Proof.
  intros F G Hr. pose proof (fr_weak (Some r) _ _ F) as F'. pose proof (fr_trans _ _ _ _ F' G) as X.
  constructor; try apply X. intros b o Hb E N. destruct (fr_root _ _ _ X b o Hb E N) as [o' [E' [N' R]]].
  exists o'. split; auto. split; auto. intros _. apply R. intro Q. injection Q as ->. lia.
Qed.

Lemma construct_spec rk st f : ok st -> acyc rk st ->
  wp (f (l_no st)) (fun _ st' => ok st' /\ fr (Some (l_no st)) (add_obj st (KPlain VNull)) st')
     (fun st' => ok st' /\ fr (Some (l_no st)) (add_obj st (KPlain VNull)) st') (add_obj st (KPlain VNull)) ->
  wp (construct f) (fun r st' => r = l_no st /\ safe st st' /\ client st' r) (safe st) st.
Proof.
  intros H A HF. destruct (new_spec rk st (KPlain VNull) H A Logic.I) as [O0 [F0 [A0 [E0 N0]]]].
  set (st0 := add_obj st (KPlain VNull)) in *. unfold construct, wp.
  change (new_obj (KPlain VNull) st) with (Ok (l_no st), st0). cbv iota. unfold wp in HF.
  assert (CL : forall st1, fr (Some (l_no st)) st0 st1 -> client st1 (l_no st)).
  { intros st1 F1. destruct (fr_root _ _ _ F1 (l_no st) _ (wf_ob _ _ (proj1 O0) _ _ E0) E0 N0) as [o' [E' [N' _]]].
    split; eauto. }
  destruct (f (l_no st) st0) as [[u|e| | |] st1]; auto.
  - destruct HF as [O1 F1]. split; auto. split; [split; auto; eapply fr_new; eauto|auto].
  - destruct HF as [O1 F1]. destruct (destruct_spec st1 (l_no st) O1 (CL _ F1)) as [st2 [E2 [O2 [F2 _]]]].
    rewrite E2. split; auto. apply F2; auto. eapply fr_new; eauto.
Qed.

Lemma with_temp_spec {A} rk st (f : nat -> L A) : ok st -> acyc rk st ->
  wp (f (l_no st)) (fun _ st' => safe (add_obj st (KPlain VNull)) st')
     (fun st' => safe (add_obj st (KPlain VNull)) st') (add_obj st (KPlain VNull)) ->
  wp (with_temp f) (fun _ st' => safe st st') (safe st) st.
Proof.
  intros H AC HF. destruct (new_spec rk st (KPlain VNull) H AC Logic.I) as [O0 [F0 [A0 [E0 N0]]]].
  set (st0 := add_obj st (KPlain VNull)) in *. unfold with_temp, wp.
  change (new_obj (KPlain VNull) st) with (Ok (l_no st), st0). cbv iota. unfold wp in HF.
  assert (CL : forall st1, fr None st0 st1 -> client st1 (l_no st)).
  { intros st1 F1. destruct (fr_root _ _ _ F1 (l_no st) _ (wf_ob _ _ (proj1 O0) _ _ E0) E0 N0) as [o' [E' [N' _]]].
    split; eauto. }
  destruct (f (l_no st) st0) as [[u|e| | |] st1]; try contradiction.
  - destruct HF as [O1 F1]. destruct (destruct_spec st1 (l_no st) O1 (CL _ F1)) as [st2 [E2 [O2 [F2 _]]]].
    rewrite E2. split; auto. apply F2; auto. eapply fr_trans; eauto.
  - destruct HF as [O1 F1]. destruct (destruct_spec st1 (l_no st) O1 (CL _ F1)) as [st2 [E2 [O2 [F2 _]]]].
    rewrite E2. split; auto. apply F2; auto. eapply fr_trans; eauto.
Qed.
