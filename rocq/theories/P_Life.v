(** C17: VariantRef never dangles.  See Life.v for the model and LifeRun.v for [hist]. *)
From Coq Require Import Lia ZArith.
From Verif Require Import Base Float Value Path Life LifeProofs LifeSafe LifeRefs LifeGrow LifeSlots LifeOps LifeRun.
Open Scope nat_scope.

(** Full statement of C17, not true of the code (see the refutations below): in every history
    of operations that uses only variables in scope, no operation has undefined behaviour; a use
    of a reference whose target is gone throws InvalidReferenceError; while the target lives the
    reference reads and writes exactly it.

    The theorems are about histories in which
    - no operation works on a state in which a container holds itself, or would if an object that
      a proxy starts from still held the storage which the proxy keeps ([acyclic]);
    - an assignment whose source is a reference has a destination that is not a proxy for a
      missing element; ReassignRef is called on a reference, not on such a proxy ([allowed]).
    Vectors move whenever [coins] says so, at any point. *)

(** No operation of such a history touches an object or a storage that was freed. *)
Theorem C17_safe_partial coins V st p : hist coins V st -> incl (uses p) V -> allowed st p -> acyclic st ->
  (exists ans st', run p st = (Ok ans, st')) \/ (exists x st', run p st = (Throw x, st')).
Proof.
  intros H HU HA HC. destruct (hist_inv _ _ _ H) as [O C].
  pose proof (run_spec st p O HC (fun a Ha => C a (HU a Ha)) HA) as R. unfold wp in R.
  destruct (run p st) as [[ans|x| | |] st']; try contradiction; [left|right]; eauto.
Qed.
Print Assumptions C17_safe_partial.

(** The variables of the program stay alive until they go out of scope, and what is gone stays
    gone. *)
Theorem C17_scope_partial coins V st : hist coins V st ->
  (forall a, In a V -> exists o, l_obj st a = Some o) /\
  forall p r st', incl (uses p) V -> allowed st p -> acyclic st -> run p st = (r, st') ->
    (forall a, a < l_no st -> l_obj st a = None -> l_obj st' a = None) /\
    (forall a, p = ODelete a -> l_obj st' a = None).
Proof.
  intro H. destruct (hist_inv _ _ _ H) as [O C]. split; [intros a Ha; apply (C a Ha)|].
  intros p r st' HU HA HC E.
  pose proof (run_spec st p O HC (fun a Ha => C a (HU a Ha)) HA) as R. unfold wp in R. rewrite E in R. split.
  - destruct r; try contradiction; apply R.
  - intros a ->. destruct (destruct_spec st a O) as [st1 [E1 [_ [_ [_ [D _]]]]]].
    { apply C, HU. now left. }
    cbn in E. unfold lbind in E. rewrite E1 in E. injection E as _ <-. exact D.
Qed.
Print Assumptions C17_scope_partial.

(** A use of a reference, or of a proxy, whose target is gone throws InvalidReferenceError;
    Exists() answers no. *)
Theorem C17_dead_partial coins V st r t : hist coins V st -> refers st r t -> l_obj st t = None ->
  (forall p, In p [ORead r; OClear r] \/ (exists v, p = OPlain r v) \/ (exists b, p = OStr r b) \/
     (exists d, p = OAssign r d \/ p = OReassign d r) \/ (exists e, p = OErase r e) ->
     run p st = (Throw InvalidReferenceError, st)) /\
  (forall p, In p [OCopy r; ORef r] \/ (exists e, p = OAt r e) \/ (exists a, p = OAppend a r) \/
     (exists a e, p = OSet a e r) -> fst (run p st) = Throw InvalidReferenceError) /\
  (forall a o, In a V -> l_obj st a = Some o -> is_ref (o_c o) = false ->
     fst (run (OAssign a r) st) = Throw InvalidReferenceError) /\
  (acyclic st -> forall a o, l_obj st a = Some o -> is_ref (o_c o) = false ->
     fst (run (OAppend r a) st) = Throw InvalidReferenceError /\
     forall e, fst (run (OSet r e a) st) = Throw InvalidReferenceError) /\
  run (OExists r) st = (Ok (ABool false), st).
Proof.
  intros H HR Et. destruct (hist_inv _ _ _ H) as [O C]. pose proof O as [W T].
  assert (RE : forall m, reach m r st = (Throw InvalidReferenceError, st)) by (intro m; eapply dead_reach; eauto).
  assert (MR : forall a, make_ref r a st = (Throw InvalidReferenceError, st)) by (intro a; eapply dead_make_ref; eauto).
  set (st0 := add_obj st (KPlain VNull)).
  assert (W0 : wf None st0) by (apply wf_add_obj; auto; exact Logic.I).
  assert (HR0 : refers st0 r t) by (apply refers_add; auto).
  assert (Et0 : l_obj st0 t = None).
  { cbn. rewrite upd_ne; auto. destruct (refers_linked _ _ _ W HR) as [o [_ [Hb _]]]. lia. }
  assert (RE0 : forall m, reach m r st0 = (Throw InvalidReferenceError, st0)) by (intro m; eapply dead_reach; eauto).
  split; [|split; [|split; [|split]]].
  - intros p [[<-|[<-|[]]]|[[v ->]|[[b ->]|[[d [-> | ->]]|[e ->]]]]]; cbn [run];
      unfold assign, clear, erase_elem, lbind; rewrite ?RE, ?MR; reflexivity.
  - intros p [[<-|[<-|[]]]|[[e ->]|[[a ->]|[a [e ->]]]]]; cbn [run]; unfold lbind at 1, construct, with_temp;
      change (new_obj (KPlain VNull) st) with (Ok (l_no st), st0); cbv iota beta.
    + unfold assign, lbind. rewrite RE0. now destruct (destruct_obj (l_no st) st0).
    + rewrite (dead_make_ref st0 r t); auto. now destruct (destruct_obj (l_no st) st0).
    + rewrite (dead_make_at st0 r t); auto. now destruct (destruct_obj (l_no st) st0).
    + unfold assign, lbind. rewrite RE0. unfold destruct_obj. cbn. rewrite upd_eq. reflexivity.
    + unfold assign, lbind. rewrite RE0. unfold destruct_obj. cbn. rewrite upd_eq. reflexivity.
  - intros a o Ha Ea Ra. cbn [run]. unfold lbind at 1, assign, lbind at 1.
    assert (E1 : reach RThrow a st = (Ok a, st)).
    { pose proof (not_none _ _ _ _ W Ea ltac:(discriminate)) as NN. unfold reach, lbind, get_obj. rewrite Ea.
      destruct (o_c o); try discriminate; try reflexivity. exfalso; eapply NN; eauto. }
    rewrite E1. unfold assign_from, lbind at 1, get_obj at 1. rewrite Ea.
    assert (PIN : forall s (f : nat -> L unit), fst (pin s (lbind (reach RCreate r) f) st) = Throw InvalidReferenceError).
    { intros s f. unfold pin. set (stp := set_pins st (s :: l_pins st)).
      assert (X : reach RCreate r stp = (Throw InvalidReferenceError, stp)).
      { (* the pins play no part *)
        destruct (refers_linked _ _ _ W HR) as [or [Er Hl]]. pose proof (dead_check _ _ _ W Hl Et) as D.
        assert (D' : check_ref or stp = (Throw InvalidReferenceError, stp)).
        { unfold check_ref in *. cbn. destruct (o_tok or) as [k|]; [|reflexivity]. destruct (l_tok st k); [discriminate|reflexivity]. }
        destruct HR as [o' [Er' HR]]. rewrite Er in Er'. injection Er' as <-.
        unfold reach, lbind at 1, get_obj. cbn [l_obj stp set_pins]. rewrite Er.
        destruct HR as [HR|[z [keep [q [HR Ez]]]]]; rewrite HR.
        - unfold target, lbind. rewrite D'. reflexivity.
        - unfold proxy_resolve, lbind, get_obj. cbn [l_obj stp set_pins]. rewrite Er, HR. fold stp. rewrite D'. reflexivity. }
      unfold lbind. rewrite X. reflexivity. }
    pose proof (not_none _ _ _ _ W Ea ltac:(discriminate)) as NN.
    assert (FST : forall (m : L unit), fst (m st) = Throw InvalidReferenceError ->
      fst (let (r0, st1) := m st in match r0 with
         | Ok _ => lret ADone st1 | Throw e => (Throw e, st1) | UB => (UB, st1) | Abort => (Abort, st1) | Fuel => (Fuel, st1) end)
      = Throw InvalidReferenceError).
    { intros m Hm. destruct (m st) as [r0 st1]. cbn in Hm. subst. reflexivity. }
    destruct (o_c o) as [b|v|s|s|s|s|s] eqn:Ec; try discriminate.
    + exfalso; eapply NN; eauto.
    + destruct v; unfold lbind; rewrite RE; reflexivity.
    + apply FST, PIN.
    + apply FST, PIN.
    + apply FST, PIN.
  - intros [rk A] a o Ea Ra. destruct (temp_assign rk st a o O A Ea Ra) as [st1 [E1 [T1 [N1 [F1 _]]]]]. fold st0 in E1.
    assert (B : r <> l_no st /\ t <> l_no st).
    { destruct (refers_linked _ _ _ W HR) as [or [Er [Hb _]]]. pose proof (wf_ob _ _ W _ _ Er). lia. }
    assert (X : reach RCreate r st1 = (Throw InvalidReferenceError, st1)).
    { destruct (refers_linked _ _ _ W HR) as [or [Er Hl]]. pose proof (dead_check _ _ _ W Hl Et) as D.
      assert (D' : check_ref or st1 = (Throw InvalidReferenceError, st1)).
      { unfold check_ref in *. rewrite T1. destruct (o_tok or) as [k|]; [|reflexivity]. destruct (l_tok st k); [discriminate|reflexivity]. }
      destruct HR as [o' [Er' HR]]. rewrite Er in Er'. injection Er' as <-.
      unfold reach, lbind at 1, get_obj. rewrite F1 by apply B. rewrite Er.
      destruct HR as [HR|[z [keep [q [HR Ez]]]]]; rewrite HR.
      - unfold target, lbind. rewrite D'. reflexivity.
      - unfold proxy_resolve, lbind, get_obj. rewrite F1 by apply B. rewrite Er, HR, D'. reflexivity. }
    assert (DS : forall st2, l_obj st2 (l_no st) <> None -> fst (destruct_obj (l_no st) st2) = Ok tt).
    { intros st2 N. unfold destruct_obj. destruct (l_obj st2 (l_no st)); [reflexivity|congruence]. }
    assert (G : forall (f : nat -> L unit), (f (l_no st) st0 = (Throw InvalidReferenceError, st1)) ->
       fst ((with_temp f >>> lret ADone) st) = Throw InvalidReferenceError).
    { intros f Hf. unfold lbind, with_temp. change (new_obj (KPlain VNull) st) with (Ok (l_no st), st0). cbv iota beta.
      rewrite Hf. pose proof (DS st1 N1) as Q. destruct (destruct_obj (l_no st) st1) as [q st2]. cbn in Q. subst q. reflexivity. }
    split; [|intro e]; apply G; unfold lbind; rewrite E1; unfold append, set_elem, lbind; rewrite X; reflexivity.
  - destruct (refers_linked _ _ _ W HR) as [o [E Hl]]. destruct Hl as [_ [k [Ek [H1 _]]]].
    assert (K : l_tok st k = false). { destruct (l_tok st k); [|auto]. destruct (H1 eq_refl) as [? X]. congruence. }
    destruct HR as [o' [E' HR]]. rewrite E in E'. injection E' as <-.
    cbn [run]. unfold lbind, exists_ref, lbind, get_obj. rewrite E.
    destruct HR as [HR|[z [keep [p [HR Ez]]]]]; rewrite HR, Ek, K; reflexivity.
Qed.
Print Assumptions C17_dead_partial.

(** While the target lives a reference stands for it: each operation does what it does on the
    target. *)
Theorem C17_live_partial coins V st r t k : hist coins V st -> l_obj st r = Some (Obj (KRef t) k) ->
  (exists ot, l_obj st t = Some ot) ->
  (forall v, run (OPlain r v) st = run (OPlain t v) st) /\
  (forall b, run (OStr r b) st = run (OStr t b) st) /\
  (forall d, run (OAssign r d) st = run (OAssign t d) st) /\
  (forall e, run (OErase r e) st = run (OErase t e) st) /\
  run (OClear r) st = run (OClear t) st /\
  run (ORead r) st = run (ORead t) st /\
  run (OExists r) st = (Ok (ABool true), st) /\
  exists w, run (ORead r) st = (Ok (AView w), st) /\ seen st t w.
Proof.
  intros H Er Ht. destruct (hist_inv _ _ _ H) as [O _]. pose proof O as [W T].
  assert (R : forall m, reach m r st = (Ok t, st) /\ reach m t st = (Ok t, st) /\ ordinary st t).
  { intro m. eapply live_reach; eauto. }
  assert (R1 : forall m, reach m r st = (Ok t, st)) by apply R.
  assert (R2 : forall m, reach m t st = (Ok t, st)) by apply R.
  cbn [run]. unfold assign, erase_elem, clear.
  split; [|split; [|split; [|split; [|split; [|split; [|split]]]]]];
    try (intros; unfold lbind; rewrite R1, R2; reflexivity).
  - pose proof (wf_ct _ _ W _ _ Er) as [_ [k' [Ek [_ C2]]]]. cbn in Ek. destruct Ht as [ot Et].
    destruct (C2 _ Et) as [Rt Kt]. pose proof (wf_tv _ _ W _ _ _ Et Rt Kt) as KT.
    unfold lbind, exists_ref, lbind, get_obj. rewrite Er. cbn. rewrite Ek, KT. reflexivity.
  - destruct (read_seen st t O) as [w [Ew Sw]]; [apply (R RCheck)|]. exists w. split; auto.
    unfold lbind. rewrite R1, Ew. reflexivity.
Qed.
Print Assumptions C17_live_partial.

(** The same for a reference as a source, and for a reference as a destination when the source is
    a variable that is not a reference.  (A source that is a proxy may free, when it is resolved,
    the element that the destination refers to.) *)
Theorem C17_live_operand_partial coins V st r t k : hist coins V st -> acyclic st ->
  l_obj st r = Some (Obj (KRef t) k) -> (exists ot, l_obj st t = Some ot) ->
  (run (OCopy r) st = run (OCopy t) st /\ run (ORef r) st = run (ORef t) st /\
   (forall d, run (OReassign d r) st = run (OReassign d t) st) /\
   (forall e, run (OAt r e) st = run (OAt t e) st) /\
   (forall a, run (OAppend a r) st = run (OAppend a t) st) /\
   (forall a e, run (OSet a e r) st = run (OSet a e t) st)) /\
  (forall s o, l_obj st s = Some o -> is_ref (o_c o) = false ->
     run (OAssign s r) st = run (OAssign s t) st /\ run (OAppend r s) st = run (OAppend t s) st /\
     forall e, run (OSet r e s) st = run (OSet t e s) st).
Proof.
  intros H [rk A] Er Ht. destruct (hist_inv _ _ _ H) as [O _]. pose proof O as [W T].
  pose proof (live_of st r t k W Er Ht) as L. pose proof (live_add _ _ _ W L) as L0.
  set (st0 := add_obj st (KPlain VNull)) in *. cbn [run]. split.
  - split; [|split; [|split; [|split; [|split]]]]; intros; unfold lbind at 1.
    + rewrite (construct_cong (assign r) (assign t)); [reflexivity|]. now apply live_assign.
    + rewrite (construct_cong (make_ref r) (make_ref t)); [reflexivity|]. now apply live_make_ref.
    + rewrite (live_make_ref st r t); auto.
    + rewrite (construct_cong (make_at r e) (make_at t e)); [reflexivity|]. now apply live_make_at.
    + rewrite (with_temp_cong _ (fun v => assign t v >>> append a v)); [reflexivity|].
      unfold lbind. fold st0. now rewrite (live_assign st0 r t).
    + rewrite (with_temp_cong _ (fun v => assign t v >>> set_elem a e v)); [reflexivity|].
      unfold lbind. fold st0. now rewrite (live_assign st0 r t).
  - intros s o Es Rs. destruct (temp_assign rk st s o O A Es Rs) as [st1 [E1 [T1 [N1 [F1 _]]]]]. fold st0 in E1.
    assert (L1 : live st1 r t).
    { eapply live_ext; [exact L| | |exact T1]; apply F1; destruct L as [[k' [E _]] [ot [Et _]]].
      - pose proof (wf_ob _ _ W _ _ E). lia.
      - pose proof (wf_ob _ _ W _ _ Et). lia. }
    split; [|split; [|intro e]]; unfold lbind at 1.
    + rewrite (live_assign_to st r t s o); auto.
    + rewrite (with_temp_cong _ (fun v => assign s v >>> append t v)); [reflexivity|].
      unfold lbind. fold st0. rewrite E1. now apply live_append.
    + rewrite (with_temp_cong _ (fun v => assign s v >>> set_elem t e v)); [reflexivity|].
      unfold lbind. fold st0. rewrite E1. now apply live_set.
Qed.
Print Assumptions C17_live_operand_partial.

(** What is written through a reference is in the target, is read back through the reference and
    by the target's own name, and no other variable has changed. *)
Theorem C17_write_partial coins V st r t k v : hist coins V st -> acyclic st -> In r V ->
  l_obj st r = Some (Obj (KRef t) k) -> (exists ot, l_obj st t = Some ot) ->
  exists st', run (OPlain r v) st = (Ok ADone, st') /\
    (exists k', l_obj st' t = Some (Obj (KPlain v) k')) /\
    (forall b, In b V -> b <> t -> l_obj st' b = l_obj st b) /\
    run (ORead r) st' = (Ok (AView (RPlain v)), st') /\ run (ORead t) st' = (Ok (AView (RPlain v)), st').
Proof.
  intros H [rk A] Hr Er Ht. destruct (hist_inv _ _ _ H) as [O C]. pose proof O as [W T].
  destruct (live_reach st r t k RCreate W Er Ht) as [R1 [_ [ot [Et Rt]]]].
  destruct (plain_init_spec rk st t ot v O A Et Rt) as [st' [E [O' [A' [F' _]]]]].
  destruct (plain_init_frame rk st t ot v st' O A Et Rt E) as [Et' FR].
  exists st'. split; [cbn [run]; unfold lbind; rewrite R1, E; reflexivity|].
  split; [eauto|]. split; [intros b Hb Nb; apply FR; auto; apply (C b Hb)|].
  assert (Nrt : r <> t). { intros ->. rewrite Er in Et. injection Et as <-. discriminate. }
  assert (Er' : l_obj st' r = Some (Obj (KRef t) k)). { rewrite FR; auto. apply (C r Hr). }
  destruct (live_reach st' r t k RThrow (proj1 O') Er') as [R3 [R4 _]]; [eauto|].
  assert (RD : read_obj t st' = (Ok (RPlain v), st')). { unfold read_obj, lbind, get_obj. rewrite Et'. reflexivity. }
  split; cbn [run]; unfold lbind; [rewrite R3|rewrite R4]; rewrite RD; reflexivity.
Qed.
Print Assumptions C17_write_partial.

(** A variable that goes out of scope: every reference to it is dead from then on. *)
Theorem C17_deleted_partial coins V st r t k : hist coins V st -> acyclic st -> In r V -> In t V ->
  l_obj st r = Some (Obj (KRef t) k) ->
  exists st', run (ODelete t) st = (Ok ADone, st') /\
    run (ORead r) st' = (Throw InvalidReferenceError, st') /\
    (forall v, run (OPlain r v) st' = (Throw InvalidReferenceError, st')) /\
    run (OExists r) st' = (Ok (ABool false), st').
Proof.
  intros H HC Hr Ht Er. destruct (hist_inv _ _ _ H) as [O C]. pose proof O as [W T].
  destruct (destruct_spec st t O (C t Ht)) as [st' [E [O' [_ [_ [D [_ FR]]]]]]].
  exists st'. assert (R : run (ODelete t) st = (Ok ADone, st')) by (cbn [run]; unfold lbind; rewrite E; reflexivity).
  split; auto.
  assert (Nrt : r <> t).
  { intros ->. pose proof (wf_ct _ _ W _ _ Er) as C2. cbn in C2. destruct C2 as [_ [k' [_ [_ C2]]]].
    destruct (C2 _ Er) as [X _]. discriminate. }
  assert (H' : hist coins (vars_after V (ODelete t) ADone) st').
  { eapply hist_ok; eauto; [intros x [<-|[]]; exact Ht|exact Logic.I]. }
  assert (RF : refers st' r t).
  { eexists. rewrite FR; [|auto|apply (C r Hr)]. split; [exact Er|]. left. reflexivity. }
  destruct (C17_dead_partial coins _ st' r t H' RF D) as [X1 [_ [_ [_ X3]]]].
  split; [apply X1; left; now left|]. split; [|exact X3]. intro v. apply X1. right; left; eauto.
Qed.
Print Assumptions C17_deleted_partial.

(** What ends the life of an element: the entry is erased, the container cleared, or the vector
    moved to make room. *)
Lemma kill_all_dead l st u : In u l -> l_obj (snd (kill_all l st)) u = None.
Proof.
  intro H. cbn. destruct (sh_obj _ _ (gc_shrinks (l_ns (fold_left kill_obj l st)) (fold_left kill_obj l st)) u) as [X|X]; auto.
  rewrite X, kills_obj. assert (M : mem u l = true) by now apply mem_In. now rewrite M.
Qed.
Theorem C17_removed_partial coins V st a s k : hist coins V st -> acyclic st -> In a V ->
  (forall m, l_obj st a = Some (Obj (KMap s) k) -> l_sto st s = Some (SMap m) ->
    (forall key u, find_key m key = Some u -> exists st', run (OErase a (PKey key)) st = (Ok ADone, st') /\ l_obj st' u = None) /\
    (exists st', run (OClear a) st = (Ok ADone, st') /\ forall u, In u (map snd m) -> l_obj st' u = None)) /\
  (forall l, l_obj st a = Some (Obj (KList s) k) -> l_sto st s = Some (SList l) ->
    (exists st', run (OClear a) st = (Ok ADone, st') /\ forall u, In u l -> l_obj st' u = None) /\
    (forall i u, (i + 1 < 2 ^ 32)%N -> N.of_nat (List.length l) = (i + 1)%N -> nth_error l (N.to_nat i) = Some u ->
       exists st', run (OErase a (PIdx i)) st = (Ok ADone, st') /\ l_obj st' u = None) /\
    (forall b ob c, l_obj st b = Some ob -> is_ref (o_c ob) = false -> l_coins st = true :: c ->
       exists st', run (OAppend a b) st = (Ok ADone, st') /\ forall u, In u l -> l_obj st' u = None)).
Proof.
  intros H [rk A] HV. destruct (hist_inv _ _ _ H) as [O C]. pose proof O as [W T]. split.
  - intros m Ea Es.
    assert (RT : reach RThrow a st = (Ok a, st)) by (unfold reach, lbind, get_obj; rewrite Ea; reflexivity).
    assert (GO : get_obj a st = (Ok (Obj (KMap s) k), st)) by (unfold get_obj; now rewrite Ea).
    assert (MO : map_of a st = (Ok (s, m), st)).
    { unfold map_of, lbind. rewrite GO. cbn. unfold get_sto. now rewrite Es. }
    split.
    + intros key u Hu.
      assert (R : run (OErase a (PKey key)) st = (Ok ADone, snd (kill_all [u] (set_stos st (upd (l_sto st) s (Some (SMap (rem_key m key)))))))).
      { cbn [run]. unfold erase_elem, lbind. rewrite RT, GO. cbn [o_c]. rewrite MO. cbn [snd]. rewrite Hu.
        unfold set_sto. rewrite Es. reflexivity. }
      rewrite R. eexists. split; [reflexivity|]. apply kill_all_dead. now left.
    + assert (R : run (OClear a) st = (Ok ADone, snd (kill_all (map snd m) (set_stos st (upd (l_sto st) s (Some (SMap []))))))).
      { cbn [run]. unfold clear, lbind. rewrite RT, GO. cbn [o_c]. rewrite MO. unfold set_sto. rewrite Es. reflexivity. }
      rewrite R. eexists. split; [reflexivity|]. intros u Hu. now apply kill_all_dead.
  - intros l Ea Es.
    assert (RT : forall m, reach m a st = (Ok a, st)) by (intro; unfold reach, lbind, get_obj; rewrite Ea; reflexivity).
    assert (GO : get_obj a st = (Ok (Obj (KList s) k), st)) by (unfold get_obj; now rewrite Ea).
    assert (LO : list_of a st = (Ok (s, l), st)).
    { unfold list_of, lbind. rewrite GO. cbn. unfold get_sto. now rewrite Es. }
    split; [|split].
    + assert (R : run (OClear a) st = (Ok ADone, snd (kill_all l (set_stos st (upd (l_sto st) s (Some (SList []))))))).
      { cbn [run]. unfold clear, lbind. rewrite RT, GO. cbn [o_c]. rewrite LO. unfold set_sto. rewrite Es. reflexivity. }
      rewrite R. eexists. split; [reflexivity|]. intros u Hu. now apply kill_all_dead.
    + intros i u Hi Hl Hu.
      assert (R : run (OErase a (PIdx i)) st = (Ok ADone, snd (kill_all [last l 0] (set_stos st (upd (l_sto st) s (Some (SList (removelast l)))))))).
      { cbn [run]. unfold erase_elem, lbind. rewrite RT, GO. cbn [o_c]. rewrite LO. cbn [snd].
        rewrite Hl. rewrite N.mod_small by exact Hi. rewrite N.ltb_irrefl.
        assert (X : N.ltb i (i + 1) = true) by (apply N.ltb_lt; lia). rewrite X.
        unfold set_sto. rewrite Es. reflexivity. }
      rewrite R. eexists. split; [reflexivity|]. apply kill_all_dead. left.
      assert (X : exists l', l = l' ++ [u]).
      { apply nth_error_split in Hu. destruct Hu as [l1 [l2 [-> Hl1]]]. rewrite app_length in Hl. cbn in Hl.
        destruct l2; [eauto|cbn in Hl; lia]. }
      destruct X as [l' ->]. apply last_last.
    + intros b ob c Eb Rb Hc. destruct (temp_assign rk st b ob O A Eb Rb) as [st1 [E1 [T1 [N1 [F1 [S1 C1]]]]]].
      assert (Na : a <> l_no st). { pose proof (wf_ob _ _ W _ _ Ea). lia. }
      destruct (l_obj st1 (l_no st)) as [ov|] eqn:Ev; [|congruence].
      destruct (new_spec rk st (KPlain VNull) O A Logic.I) as [O0 [_ [A0 [E0 N0]]]].
      set (st0 := add_obj st (KPlain VNull)) in *.
      assert (Eb0 : l_obj st0 b = Some ob). { cbn. rewrite upd_ne; auto. pose proof (wf_ob _ _ W _ _ Eb). lia. }
      assert (SA : ok st1 /\ is_ref (o_c ov) = false).
      { pose proof (assign_from_spec rk st0 b ob (l_no st) _ O0 A0 Eb0 Rb E0 ltac:(left; discriminate)) as SP.
        assert (X : assign_from b (l_no st) st0 = (Ok tt, st1)).
        { rewrite <- E1. unfold assign, lbind at 1, reach, lbind, get_obj. rewrite Eb0.
          pose proof (not_none _ _ _ _ W Eb ltac:(discriminate)) as NN.
          destruct (o_c ob); try discriminate; try reflexivity. exfalso; eapply NN; eauto. }
        unfold wp in SP. rewrite X in SP. destruct SP as [[O1 F] _]. split; auto.
        destruct (fr_root _ _ _ F (l_no st) _ (wf_ob _ _ (proj1 O0) _ _ E0) E0 N0) as [o' [E' [_ R']]].
        rewrite Ev in E'. injection E' as <-. rewrite R'; [reflexivity|discriminate]. }
      destruct SA as [O1 Rv].
      assert (Es1 : l_sto st1 s = Some (SList l)) by (rewrite S1; exact Es).
      assert (Ea1 : l_obj st1 a = Some (Obj (KList s) k)) by (rewrite F1; auto).
      assert (AP : append a (l_no st) st1 = grow s l [o_c ov] st1).
      { unfold append, lbind, reach, lbind, get_obj. rewrite Ea1. cbn. rewrite Ea1. cbn.
        unfold list_of, lbind, get_obj, get_sto. rewrite Ea1. cbn. rewrite Es1. cbn. rewrite Ev, Rv. reflexivity. }
      assert (GR : exists st2, grow s l [o_c ov] st1 = (Ok tt, st2) /\ (forall u, In u l -> l_obj st2 u = None) /\
        l_obj st2 (l_no st) <> None).
      { destruct (grow_spec rk 0%Z st1 s l [o_c ov] O1 Es1) as [st2 [l' [E2 [_ [_ [_ [_ [_ [_ [K _]]]]]]]]]].
        { intros c0 [<-|[]]. eapply cvalid_of; eauto; [apply O1|discriminate]. }
        exists st2. split; [exact E2|]. split.
        - set (st1c := set_coins st1 c).
          assert (HE : forall e, In e l -> exists o, l_obj st1c e = Some o /\ is_ref (o_c o) = false).
          { intros e He. destruct (wf_el _ _ (proj1 O1) _ _ _ Es1 He) as [o [Eo Ro]]. eauto. }
          destruct (contents_run l st1c (wf_set_coins _ _ _ (proj1 O1)) HE) as [cs [Ecs _]].
          unfold grow, lbind at 1, coin in E2. rewrite C1, Hc in E2. cbv iota beta in E2. fold st1c in E2.
          unfold lbind at 1 in E2. rewrite Ecs in E2. unfold lbind at 1 in E2. rewrite new_objs_run in E2.
          unfold lbind at 1 in E2. rewrite new_objs_run in E2. unfold lbind at 1 in E2. unfold set_sto in E2.
          destruct (adds_rest [o_c ov] (adds st1c cs)) as [_ [X _]]. destruct (adds_rest cs st1c) as [_ [Y _]].
          rewrite X, Y in E2. cbn [l_sto st1c set_coins] in E2. rewrite Es1 in E2.
          intros u Hu. match type of E2 with kill_all _ ?z = _ => pose proof (kill_all_dead l z u Hu) as D end.
          rewrite E2 in D. exact D.
        - rewrite (K _ _ Ev); [discriminate|]. intro Hi.
          destruct (wf_el _ _ W _ _ _ Es Hi) as [o [Eo _]]. pose proof (wf_ob _ _ W _ _ Eo). lia. }
      destruct GR as [st2 [E2 [D2 N2]]].
      destruct (l_obj st2 (l_no st)) as [o2|] eqn:Eu2; [|congruence].
      eexists. split.
      * cbn [run]. unfold lbind at 1, with_temp. change (new_obj (KPlain VNull) st) with (Ok (l_no st), st0). cbv iota beta.
        unfold lbind. rewrite E1, AP, E2. unfold destruct_obj. rewrite Eu2. reflexivity.
      * intros u Hu. cbv zeta.
        match goal with |- l_obj (gc ?n ?z) u = None => destruct (sh_obj _ _ (gc_shrinks n z) u) as [X|X]; auto; rewrite X end.
        rewrite kill_obj_obj. destruct (Nat.eqb u (l_no st)); auto.
Qed.
Print Assumptions C17_removed_partial.

(** Nothing that is not reached from an object is kept: every storage that lives is held by an
    object that lives or kept for a proxy that lives. *)
Theorem C17_held_partial coins V st s x : hist coins V st -> l_sto st s = Some x ->
  (exists a o, l_obj st a = Some o /\ holds (o_c o) = Some s) \/
  (exists z t p, l_sto st z = Some (SProxy t (Some s) p)).
Proof.
  intros H E. destruct (hist_inv _ _ _ H) as [[W T] _]. specialize (T _ _ E). unfold owned in T.
  apply orb_prop in T. destruct T as [T|T]; [apply orb_prop in T; destruct T as [T|T]|].
  - left. apply existsb_exists in T. destruct T as [a [_ T]]. unfold obj_holds in T.
    destruct (l_obj st a) as [o|] eqn:Ea; [|discriminate]. destruct (holds (o_c o)) as [s'|] eqn:Eh; [|discriminate].
    apply Nat.eqb_eq in T. subst. eauto.
  - right. apply existsb_exists in T. destruct T as [z [_ T]]. unfold proxy_keeps in T.
    destruct (l_sto st z) as [[b|l|m|t [s'|] p]|] eqn:Ez; try discriminate. apply Nat.eqb_eq in T. subst. eauto.
  - exfalso. rewrite (hist_pins _ _ _ H) in T. discriminate.
Qed.
Print Assumptions C17_held_partial.

(** ** A history that meets the hypotheses *)

(** Variant v; v["k"] = 5; VariantRef r = v["k"]; then a list is built, with vectors that move. *)
Definition ex_k : bytes := s2b "k".
Definition ex_ops : list op :=
  [ONew; OAt 0 (PKey ex_k); OPlain 1 (VInt 5); ONew; OAppend 3 1; OAppend 3 0; ORef 0].

Lemma hist_run coins V st p : hist coins V st -> incl (uses p) V -> allowed st p -> acyclic st ->
  match run p st with
  | (Ok ans, st') => hist coins (vars_after V p ans) st'
  | (Throw _, st') => hist coins V st'
  | _ => True
  end.
Proof.
  intros. destruct (run p st) as [[ans|x| | |] st'] eqn:E; auto; [eapply hist_ok|eapply hist_throw]; eauto.
Qed.

(** The elements of a state, listed, to show that numbers of storages are such ranks. *)
Definition acycb (rk : nat -> Z) (st : lst) : bool :=
  forallb (fun T => match l_sto st T with
    | None => true
    | Some x =>
        forallb (fun e => match l_obj st e with
          | Some o => match holds (o_c o) with Some s => Z.ltb (rk s) (rk T) | None => true end
          | None => true end) (elems x) &&
        forallb (fun z => match l_sto st z with
          | Some (SProxy t (Some s) _) => negb (mem t (elems x)) || Z.ltb (rk s) (rk T)
          | _ => true end) (seq 0 (l_ns st))
    end) (seq 0 (l_ns st)).
Lemma acycb_ok rk st : ok st -> acycb rk st = true -> acyclic st.
Proof.
  intros [W _] H. exists rk. unfold acycb in H. rewrite forallb_forall in H. split.
  - intros T x e o s ET He Eo Es. assert (HT : In T (seq 0 (l_ns st))).
    { apply in_seq. pose proof (wf_sb _ _ W _ _ ET). lia. }
    specialize (H T HT). rewrite ET in H. apply andb_prop in H. destruct H as [H _].
    rewrite forallb_forall in H. specialize (H e He). rewrite Eo, Es in H. now apply Z.ltb_lt.
  - intros z t s p T x Ez ET He. assert (HT : In T (seq 0 (l_ns st))).
    { apply in_seq. pose proof (wf_sb _ _ W _ _ ET). lia. }
    assert (Hz : In z (seq 0 (l_ns st))). { apply in_seq. pose proof (wf_sb _ _ W _ _ Ez). lia. }
    specialize (H T HT). rewrite ET in H. apply andb_prop in H. destruct H as [_ H].
    rewrite forallb_forall in H. specialize (H z Hz). rewrite Ez in H. apply orb_prop in H.
    destruct H as [H|H]; [|now apply Z.ltb_lt]. apply negb_true_iff in H. apply mem_In in He. congruence.
Qed.

(** The conditions of [hist], computed. *)
Definition allowedb (st : lst) (p : op) : bool :=
  match p with
  | OAssign src dst =>
      match l_obj st dst with Some (Obj (KProxy _) _) => false | _ => true end ||
      match l_obj st src with Some o => negb (is_ref (o_c o)) | None => true end
  | OReassign r _ => match l_obj st r with Some (Obj (KRef _) _) => true | _ => false end
  | _ => true
  end.
Lemma allowedb_ok st p : allowedb st p = true -> allowed st p.
Proof.
  destruct p; cbn; auto.
  - intro H. apply orb_prop in H. destruct H as [H|H].
    + left. intros o z E Ez. rewrite E in H. destruct o as [c k]; cbn in Ez; subst. discriminate.
    + right. intros o E. rewrite E in H. now apply negb_true_iff.
  - intro H. destruct (l_obj st r) as [[c k]|]; [|discriminate]. destruct c; try discriminate. eexists _, _. split; reflexivity.
Qed.
Fixpoint play (rk : nat -> Z) (V : list nat) (ps : list op) (st : lst) : option (list nat * lst) :=
  match ps with
  | [] => Some (V, st)
  | p :: r =>
      if forallb (fun a => mem a V) (uses p) && allowedb st p && acycb rk st then
        match run p st with
        | (Ok ans, st') => play rk (vars_after V p ans) r st'
        | (Throw _, st') => play rk V r st'
        | _ => None
        end
      else None
  end.
Lemma play_hist coins rk ps : forall V st V' st', hist coins V st -> play rk V ps st = Some (V', st') -> hist coins V' st'.
Proof.
  induction ps as [|p ps IH]; cbn; intros V st V' st' H E; [injection E as <- <-; auto|].
  destruct (forallb (fun a => mem a V) (uses p) && allowedb st p && acycb rk st) eqn:B; [|discriminate].
  apply andb_prop in B. destruct B as [B B3]. apply andb_prop in B. destruct B as [B1 B2].
  assert (HU : incl (uses p) V). { intros a Ha. rewrite forallb_forall in B1. apply mem_In. auto. }
  pose proof (hist_run coins V st p H HU (allowedb_ok _ _ B2) (acycb_ok rk _ (proj1 (hist_inv _ _ _ H)) B3)) as R.
  destruct (run p st) as [[ans|x| | |] st1]; try discriminate; eapply IH; eauto.
Qed.

(** The rank used: storages made later are larger, except the map that is put into the list. *)
Definition ex_rk (s : nat) : Z := Z.of_nat s.
Definition ex_coins : list bool := [true; true; true].
Definition ends (coins : list bool) (rk : nat -> Z) (ps : list op) : list nat * lst :=
  match play rk [] ps (empty_state coins) with Some x => x | None => ([], empty_state coins) end.
Lemma ends_hist coins rk ps : hist coins (fst (ends coins rk ps)) (snd (ends coins rk ps)).
Proof.
  unfold ends. destruct (play rk [] ps (empty_state coins)) as [[V st]|] eqn:E; cbn [fst snd]; [|apply hist_start].
  eapply play_hist; [apply hist_start|exact E].
Qed.
Definition ex_V : list nat := fst (ends ex_coins ex_rk ex_ops).
Definition ex_st : lst := snd (ends ex_coins ex_rk ex_ops).
Lemma ex_hist : hist ex_coins ex_V ex_st.
Proof. exact (ends_hist ex_coins ex_rk ex_ops). Qed.
Lemma ex_acyclic : acyclic ex_st.
Proof. apply (acycb_ok ex_rk); [apply (hist_inv _ _ _ ex_hist)|vm_compute; reflexivity]. Qed.

Example C17_vars : ex_V = [9; 3; 1; 0].
Proof. vm_compute. reflexivity. Qed.
(** [9] is a reference to [0], a map with one key; [1] refers to the value of the key. *)
Example C17_ex_ref : l_obj ex_st 9 = Some (Obj (KRef 0) (Some 0)) /\ l_obj ex_st 1 = Some (Obj (KRef 2) (Some 1)) /\
  (exists o, l_obj ex_st 0 = Some o) /\ (exists o, l_obj ex_st 2 = Some o).
Proof. split; [vm_compute; reflexivity|]. split; [vm_compute; reflexivity|]. split; eexists; vm_compute; reflexivity. Qed.
Example C17_safe_ex : exists ans st', run (OAppend 3 9) ex_st = (Ok ans, st').
Proof.
  destruct (C17_safe_partial _ _ _ (OAppend 3 9) ex_hist) as [H|[x [st' H]]]; auto.
  - rewrite C17_vars. intros a [<-|[<-|[]]]; cbn; auto.
  - exact Logic.I.
  - exact ex_acyclic.
  - exfalso. assert (X : fst (run (OAppend 3 9) ex_st) = Ok ADone) by (vm_compute; reflexivity).
    rewrite H in X. discriminate.
Qed.
Example C17_write_ex : exists st', run (OPlain 1 (VInt 7)) ex_st = (Ok ADone, st') /\
  exists k, l_obj st' 2 = Some (Obj (KPlain (VInt 7)) k).
Proof.
  destruct C17_ex_ref as [_ [E [_ Ht]]].
  destruct (C17_write_partial _ _ _ 1 2 (Some 1) (VInt 7) ex_hist ex_acyclic) as [st' [R [K _]]]; auto.
  - rewrite C17_vars. cbn. auto.
  - exists st'. auto.
Qed.
Example C17_deleted_ex : exists st', run (ODelete 0) ex_st = (Ok ADone, st') /\
  run (ORead 9) st' = (Throw InvalidReferenceError, st').
Proof.
  destruct C17_ex_ref as [E _].
  destruct (C17_deleted_partial _ _ _ 9 0 (Some 0) ex_hist ex_acyclic) as [st' [R [D _]]]; auto.
  - rewrite C17_vars. cbn. auto.
  - rewrite C17_vars. cbn. auto.
  - exists st'. auto.
Qed.
(** The element [2] lives on after the map variable [0] is deleted, for the list has a copy that
    shares the map: the reference [1] to it is still good. *)
Example C17_shared_ex : let st' := snd (run (ODelete 0) ex_st) in
  fst (run (ORead 1) st') = Ok (AView (RPlain (VInt 5))).
Proof. vm_compute. reflexivity. Qed.
(** After the list is gone too the element is gone and the reference dead. *)
Definition ex2_V : list nat := fst (ends ex_coins ex_rk (ex_ops ++ [ODelete 0; OClear 3])).
Definition ex2_st : lst := snd (ends ex_coins ex_rk (ex_ops ++ [ODelete 0; OClear 3])).
Example C17_dead_ex : hist ex_coins ex2_V ex2_st /\ refers ex2_st 1 2 /\ l_obj ex2_st 2 = None /\
  run (OPlain 1 (VInt 7)) ex2_st = (Throw InvalidReferenceError, ex2_st) /\
  fst (run (OAt 1 (PIdx 0)) ex2_st) = Throw InvalidReferenceError /\
  fst (run (OAssign 3 1) ex2_st) = Throw InvalidReferenceError.
Proof.
  assert (H : hist ex_coins ex2_V ex2_st) by exact (ends_hist ex_coins ex_rk (ex_ops ++ [ODelete 0; OClear 3])).
  assert (R : refers ex2_st 1 2).
  { exists (Obj (KRef 2) (Some 1)). split; [vm_compute; reflexivity|left; reflexivity]. }
  assert (D : l_obj ex2_st 2 = None) by (vm_compute; reflexivity).
  assert (X3 : exists o, l_obj ex2_st 3 = Some o /\ is_ref (o_c o) = false).
  { eexists. split; vm_compute; reflexivity. }
  assert (V3 : In 3 ex2_V). { assert (X : ex2_V = [9; 3; 1]) by (vm_compute; reflexivity). rewrite X. cbn. auto. }
  destruct X3 as [o [E3 R3]].
  destruct (C17_dead_partial _ _ _ _ _ H R D) as [X1 [X2 [X4 _]]].
  split; [exact H|]. split; [exact R|]. split; [exact D|].
  split; [apply X1; right; left; exists (VInt 7); reflexivity|].
  split; [apply X2; right; left; exists (PIdx 0); reflexivity|]. exact (X4 3 o V3 E3 R3).
Qed.
Example C17_live_ex : (exists w, run (ORead 9) ex_st = (Ok (AView w), ex_st) /\ seen ex_st 0 w) /\
  run (OAppend 3 9) ex_st = run (OAppend 3 0) ex_st /\ run (OSet 9 (PKey ex_k) 3) ex_st = run (OSet 0 (PKey ex_k) 3) ex_st.
Proof.
  destruct C17_ex_ref as [E [_ [Ht _]]].
  destruct (C17_live_partial _ _ _ _ _ _ ex_hist E Ht) as [_ [_ [_ [_ [_ [_ [_ X]]]]]]].
  destruct (C17_live_operand_partial _ _ _ _ _ _ ex_hist ex_acyclic E Ht) as [[_ [_ [_ [_ [X5 _]]]]] X6].
  split; [exact X|]. split; [apply X5|].
  assert (X3 : exists o, l_obj ex_st 3 = Some o /\ is_ref (o_c o) = false).
  { eexists. split; vm_compute; reflexivity. }
  destruct X3 as [o [E3 R3]]. apply (X6 3 o E3 R3).
Qed.

(** The variable [3] is a list of two elements; the next time its vector grows it moves. *)
Example C17_removed_ex : exists s k e1 e2, l_obj ex_st 3 = Some (Obj (KList s) k) /\ l_sto ex_st s = Some (SList [e1; e2]) /\
  exists st', run (OAppend 3 0) ex_st = (Ok ADone, st') /\ l_obj st' e1 = None /\ l_obj st' e2 = None.
Proof.
  assert (X : exists s k e1 e2, l_obj ex_st 3 = Some (Obj (KList s) k) /\ l_sto ex_st s = Some (SList [e1; e2])).
  { eexists _, _, _, _. split; vm_compute; reflexivity. }
  destruct X as [s [k [e1 [e2 [E3 Es]]]]]. exists s, k, e1, e2. split; [exact E3|]. split; [exact Es|].
  destruct (C17_removed_partial _ _ _ 3 s k ex_hist ex_acyclic) as [_ R]; [rewrite C17_vars; cbn; auto|].
  destruct (R _ E3 Es) as [_ [_ RA]].
  assert (X0 : exists o, l_obj ex_st 0 = Some o /\ is_ref (o_c o) = false) by (eexists; split; vm_compute; reflexivity).
  destruct X0 as [o [E0 R0]].
  destruct (RA 0 o [] E0 R0) as [st' [E D]]; [vm_compute; reflexivity|].
  exists st'. split; [exact E|]. split; apply D; cbn; auto.
Qed.
Example C17_held_ex : exists s x, l_sto ex_st s = Some x /\
  ((exists a o, l_obj ex_st a = Some o /\ holds (o_c o) = Some s) \/
   (exists z t p, l_sto ex_st z = Some (SProxy t (Some s) p))).
Proof.
  assert (X : exists s k, l_obj ex_st 3 = Some (Obj (KList s) k) /\ exists x, l_sto ex_st s = Some x).
  { eexists _, _. split; [vm_compute; reflexivity|]. eexists. vm_compute. reflexivity. }
  destruct X as [s [k [_ [x E]]]]. exists s, x. split; [exact E|]. exact (C17_held_partial _ _ _ _ _ ex_hist E).
Qed.

(** ** What is false without the conditions *)

(** The operations use only variables in scope. *)
Fixpoint in_scope (V : list nat) (ps : list op) (st : lst) : bool :=
  match ps with
  | [] => true
  | p :: r => forallb (fun a => mem a V) (uses p) &&
      match run p st with
      | (Ok ans, st') => in_scope (vars_after V p ans) r st'
      | (Throw _, st') => in_scope V r st'
      | _ => true
      end
  end.
Definition goes_wrong (coins : list bool) (ps : list op) : Prop :=
  in_scope [] ps (empty_state coins) = true /\ fst (run_all ps (empty_state coins)) = UB.

(** v[1] = v[0] for a list of one number: the destination is made after the source was
    resolved, and the vector may move while the source is still read. *)
Theorem C17_move_refuted : exists coins ps,
  goes_wrong coins (ps ++ [OAssign 4 5]) /\ fst (run_all (ps ++ [OAssign 4 5]) (empty_state [])) = Ok tt.
Proof.
  exists [false; true], [ONew; ONew; OPlain 1 (VInt 5); OAppend 0 1; OAt 0 (PIdx 0); OAt 0 (PIdx 1)].
  split; [split|]; vm_compute; reflexivity.
Qed.
Print Assumptions C17_move_refuted.

(** v[0] = v; v = 5; r = 7, where r is a reference to v[0]: the list holds itself, and Destroy
    writes to the object after it has freed the list that the object is in. *)
Theorem C17_cycle_refuted : exists ps, goes_wrong [] ps.
Proof.
  exists [ONew; ONew; OAppend 0 1; OAt 0 (PIdx 0); OAssign 0 4; OPlain 0 (VInt 5); OPlain 4 (VInt 7)].
  split; vm_compute; reflexivity.
Qed.
Print Assumptions C17_cycle_refuted.

(** VariantRef p = v["k"]; p.ReassignRef(p), where v has no "k": ProxyInit frees the path that
    it then reads. *)
Theorem C17_reassign_refuted : exists ps, goes_wrong [] (ps ++ [OReassign 1 1]).
Proof. exists [ONew; OAt 0 (PKey ex_k)]. split; vm_compute; reflexivity. Qed.
Print Assumptions C17_reassign_refuted.

(** r = v["k"]; p = v["x"], which is missing; v = 5; p.ReassignRef(r): the proxy [p] alone keeps
    the map alive; RefInit gives it up before it looks at the element. *)
Theorem C17_reassign_kept_refuted : exists ps, goes_wrong [] (ps ++ [OReassign 3 1]) /\
  fst (run_all (ps ++ [ORead 1]) (empty_state [])) = Ok tt.
Proof.
  exists [ONew; OAt 0 (PKey ex_k); OPlain 1 (VInt 5); OAt 0 (PKey (s2b "x")); OPlain 0 (VInt 5)].
  split; [split|]; vm_compute; reflexivity.
Qed.
Print Assumptions C17_reassign_kept_refuted.

(** Reading through a proxy: it keeps the storage that the object it starts from held when the
    proxy was made.  When that storage has meanwhile been given the object itself as an element,
    resolving the proxy frees what it was resolved to. *)
Theorem C17_kept_refuted : exists ps, goes_wrong [] (ps ++ [OExists 8; ORead 8]) /\
  fst (run_all (ps ++ [OExists 8]) (empty_state [])) = Ok tt.
Proof.
  exists [ONew; ONew; OAppend 0 1; OAt 0 (PIdx 0); ONew; OAppend 5 1; OAssign 5 4; OAt 4 (PIdx 1);
          OPlain 4 VNull; OAppend 5 0; OAppend 4 1; OAppend 4 1; OPlain 5 VNull; OPlain 0 VNull; ORead 4].
  split; [split|]; vm_compute; reflexivity.
Qed.
Print Assumptions C17_kept_refuted.
