(** Proofs about Life.v: each function keeps the invariant of LifeProofs.v and has no undefined
    behaviour. *)
From Coq Require Import Lia ZArith.
From Verif Require Import Base Float Value Path Life LifeProofs.
Open Scope nat_scope.

(** ** Outcomes *)
Definition wp {A} (m : L A) (Q : A -> lst -> Prop) (E : lst -> Prop) (st : lst) : Prop :=
  match m st with
  | (Ok a, st') => Q a st'
  | (Throw _, st') => E st'
  | (_, _) => False
  end.
Lemma wp_bind {A B} (m : L A) (f : A -> L B) Q E st :
  wp m (fun a => wp (f a) Q E) E st -> wp (lbind m f) Q E st.
Proof. unfold wp, lbind. destruct (m st) as [[]]; auto. Qed.
Lemma wp_mono {A} (m : L A) (Q Q' : A -> lst -> Prop) (E E' : lst -> Prop) st :
  wp m Q E st -> (forall a s, Q a s -> Q' a s) -> (forall s, E s -> E' s) -> wp m Q' E' st.
Proof. unfold wp. destruct (m st) as [[]]; auto. Qed.
Lemma wp_ok {A} (m : L A) (Q : A -> lst -> Prop) E st a st' : m st = (Ok a, st') -> Q a st' -> wp m Q E st.
Proof. unfold wp. now intros ->. Qed.
Lemma wp_step {A B} (m : L A) (f : A -> L B) Q E st a st' : m st = (Ok a, st') ->
  wp (f a) Q E st' -> wp (lbind m f) Q E st.
Proof. intros H1 H2. apply wp_bind. eapply wp_ok; eauto. Qed.

(** ** What no function does to a state: nothing comes back to life, variables and temporaries
    stay alive and what they are, storages keep their kind. *)
Record fr (x : option nat) (st st' : lst) : Prop := {
  fr_no : l_no st <= l_no st';
  fr_ns : l_ns st <= l_ns st';
  fr_pins : l_pins st' = l_pins st;
  fr_dead_o : forall a, a < l_no st -> l_obj st a = None -> l_obj st' a = None;
  fr_dead_s : forall s, s < l_ns st -> l_sto st s = None -> l_sto st' s = None;
  fr_kind : forall s y y', s < l_ns st -> l_sto st s = Some y -> l_sto st' s = Some y' -> kind y' = kind y;
  fr_root : forall b o, b < l_no st -> l_obj st b = Some o -> ~ elem_of st b ->
    exists o', l_obj st' b = Some o' /\ ~ elem_of st' b /\
      (x <> Some b -> is_ref (o_c o') = is_ref (o_c o))
}.
Lemma fr_refl x st : fr x st st.
Proof. constructor; auto; intros; [congruence|]. eauto. Qed.
Lemma fr_trans x a b c : fr x a b -> fr x b c -> fr x a c.
Proof.
  intros H1 H2. constructor.
  - pose proof (fr_no _ _ _ H1). pose proof (fr_no _ _ _ H2). lia.
  - pose proof (fr_ns _ _ _ H1). pose proof (fr_ns _ _ _ H2). lia.
  - rewrite (fr_pins _ _ _ H2). apply (fr_pins _ _ _ H1).
  - intros y Hy E. pose proof (fr_no _ _ _ H1). apply (fr_dead_o _ _ _ H2); [lia|]. now apply (fr_dead_o _ _ _ H1).
  - intros y Hy E. pose proof (fr_ns _ _ _ H1). apply (fr_dead_s _ _ _ H2); [lia|]. now apply (fr_dead_s _ _ _ H1).
  - intros s y y' Hs E E'. pose proof (fr_ns _ _ _ H1). destruct (l_sto b s) as [z|] eqn:Ez.
    + rewrite (fr_kind _ _ _ H2 s z y'); [|lia|auto|auto]. eapply (fr_kind _ _ _ H1); eauto.
    + exfalso. rewrite (fr_dead_s _ _ _ H2 s) in E'; auto; [discriminate|lia].
  - intros y o Hy E N. destruct (fr_root _ _ _ H1 _ _ Hy E N) as [o1 [E1 [N1 R1]]].
    pose proof (fr_no _ _ _ H1). destruct (fr_root _ _ _ H2 y o1) as [o2 [E2 [N2 R2]]]; auto; [lia|].
    exists o2. split; auto. split; auto. intro Hx. rewrite R2, R1; auto.
Qed.
Lemma fr_weak x st st' : fr None st st' -> fr x st st'.
Proof.
  intros []. constructor; auto. intros b o H1 H2 H3. destruct (fr_root0 b o H1 H2 H3) as [o' [E [N R]]].
  exists o'. split; auto. split; auto. intros _. apply R. discriminate.
Qed.

Lemma fr_shrinks st st' : shrinks st st' -> fr None st st'.
Proof.
  intro H. constructor.
  - rewrite (sh_no _ _ H). auto.
  - rewrite (sh_ns _ _ H). auto.
  - apply (sh_pins _ _ H).
  - intros a _ E. destruct (sh_obj _ _ H a); congruence.
  - intros a _ E. destruct (sh_sto _ _ H a); congruence.
  - intros s y y' _ E E'. destruct (sh_sto _ _ H s); congruence.
  - intros b o _ E N. destruct (sh_obj _ _ H b) as [D|D].
    + exfalso. apply N. eapply sh_elem; eauto.
    + exists o. split; [congruence|]. split; auto. intro He. apply N. eapply shrinks_elem; eauto.
Qed.
Lemma fr_gc x n st : fr x st (gc n st).
Proof. apply fr_weak, fr_shrinks, gc_shrinks. Qed.

(** Steps after a beginning [st]. *)
Lemma fr_then_obj x st st1 a o o' : fr x st st1 -> l_obj st1 a = Some o ->
  (x = Some a \/ is_ref (o_c o') = is_ref (o_c o)) ->
  fr x st (set_objs st1 (upd (l_obj st1) a (Some o'))).
Proof.
  intros H Ea Hr. eapply fr_trans; [exact H|]. constructor; cbn; auto.
  - intros b _ E. rewrite upd_ne; auto. congruence.
  - intros s y y' _ E E'. congruence.
  - intros b ob Hb E N. unfold upd. destruct (Nat.eqb_spec b a).
    + subst. exists o'. split; auto. split; [exact N|]. rewrite Ea in E. injection E as <-.
      intro Hx. destruct Hr as [->|Hr]; [contradiction|auto].
    + exists ob. auto.
Qed.
Lemma fr_then_add_obj x h st st1 c : wf h st1 -> fr x st st1 -> fr x st (add_obj st1 c).
Proof.
  intros W H. eapply fr_trans; [exact H|]. constructor; cbn; auto.
  - intros b Hb E. rewrite upd_ne; auto. lia.
  - intros s y y' _ E E'. congruence.
  - intros b ob Hb E N. exists ob. rewrite upd_ne by lia. auto.
Qed.
Lemma fr_then_add_sto x h st st1 y : wf h st1 -> fr x st st1 -> elems y = [] -> fr x st (add_sto st1 y).
Proof.
  intros W H He. eapply fr_trans; [exact H|]. constructor; cbn; auto.
  - intros b Hb E. rewrite upd_ne; auto. lia.
  - intros s z z' Hs E E'. rewrite upd_ne in E' by lia. congruence.
  - intros b ob Hb E N. exists ob. split; auto. split; auto. intros [s [z [Ez Hi]]]. cbn in Ez. unfold upd in Ez.
    destruct (Nat.eqb_spec s (l_ns st1)).
    + injection Ez as <-. rewrite He in Hi. inversion Hi.
    + apply N. exists s, z. auto.
Qed.
Lemma fr_then_add_tok x st st1 : fr x st st1 -> fr x st (add_tok st1).
Proof.
  intros H. eapply fr_trans; [exact H|]. constructor; cbn; auto.
  - intros s y y' _ E E'. congruence.
  - intros b ob Hb E N. exists ob. auto.
Qed.
Lemma fr_then_coins x st st1 c : fr x st st1 -> fr x st (set_coins st1 c).
Proof.
  intros H. eapply fr_trans; [exact H|]. constructor; cbn; auto.
  - intros s y y' _ E E'. congruence.
  - intros b ob Hb E N. exists ob. auto.
Qed.
Lemma fr_then_sto x h st st1 s y y' : wf h st1 -> fr x st st1 -> l_sto st1 s = Some y -> kind y' = kind y ->
  (forall e, In e (elems y') -> In e (elems y) \/ l_no st <= e) ->
  fr x st (set_stos st1 (upd (l_sto st1) s (Some y'))).
Proof.
  intros W H Es Hk He. constructor; cbn.
  - apply (fr_no _ _ _ H).
  - apply (fr_ns _ _ _ H).
  - apply (fr_pins _ _ _ H).
  - apply (fr_dead_o _ _ _ H).
  - intros z Hz E. pose proof (fr_dead_s _ _ _ H z Hz E). rewrite upd_ne; auto. congruence.
  - intros z w w' Hz E E'. unfold upd in E'. destruct (Nat.eqb_spec z s).
    + subst. injection E' as <-. rewrite Hk. eapply (fr_kind _ _ _ H); eauto.
    + eapply (fr_kind _ _ _ H); eauto.
  - intros b o Hb E N. destruct (fr_root _ _ _ H b o Hb E N) as [o' [E' [N' R]]].
    exists o'. split; auto. split; auto. intros [z [w [Ez Hi]]]. cbn in Ez. unfold upd in Ez.
    destruct (Nat.eqb_spec z s).
    + injection Ez as <-. apply He in Hi. destruct Hi as [Hi|Hi]; [|lia]. apply N'. exists s, y. auto.
    + apply N'. exists z, w. auto.
Qed.
Lemma fr_then_kills x st st1 l : fr x st st1 -> (forall a, In a l -> elem_of st a \/ l_no st <= a) ->
  fr x st (fold_left kill_obj l st1).
Proof.
  intros H Hl. kr l st1. constructor; rewrite ?Kno, ?Ksto, ?Kns, ?Kpin.
  - apply (fr_no _ _ _ H).
  - apply (fr_ns _ _ _ H).
  - apply (fr_pins _ _ _ H).
  - intros a Ha E. rewrite kills_obj. destruct (mem a l); auto. now apply (fr_dead_o _ _ _ H).
  - apply (fr_dead_s _ _ _ H).
  - apply (fr_kind _ _ _ H).
  - intros b o Hb E N. destruct (fr_root _ _ _ H b o Hb E N) as [o' [E' [N' R]]].
    exists o'. rewrite kills_obj. destruct (mem b l) eqn:Em.
    + apply mem_In in Em. apply Hl in Em. destruct Em; [contradiction|lia].
    + split; auto. split; auto. intros [z [w [Ez Hi]]]. rewrite Ksto in Ez. apply N'. exists z, w. auto.
Qed.

(** ** Ownership is kept *)
Lemma owned_ext st st' s :
  (forall a o, l_obj st a = Some o -> holds (o_c o) = Some s ->
     exists a' o', a' < l_no st' /\ l_obj st' a' = Some o' /\ holds (o_c o') = Some s) ->
  (forall z t p, l_sto st z = Some (SProxy t (Some s) p) ->
     z < l_ns st' /\ l_sto st' z = Some (SProxy t (Some s) p)) ->
  incl (l_pins st) (l_pins st') -> owned st s = true -> owned st' s = true.
Proof.
  intros H1 H2 H3 H. apply owned_spec in H. apply owned_spec.
  destruct H as [[a [o [_ [E Eh]]]]|[[z [t [p [_ E]]]]|H]].
  - left. eauto.
  - right; left. apply H2 in E. exists z, t, p. tauto.
  - right; right. auto.
Qed.

Definition ok (st : lst) : Prop := wf None st /\ tight st.

(** The object without its storage. *)
Definition hole (st : lst) (a : nat) (o : obj) : lst :=
  set_objs st (upd (l_obj st) a (Some (Obj (KNone (is_ref (o_c o))) (o_tok o)))).
Lemma wf_hole st a o : wf None st -> l_obj st a = Some o -> wf (Some a) (hole st a o).
Proof. intros W E. eapply wf_set_content; eauto. Qed.
Lemma elem_hole st a o b : elem_of (hole st a o) b <-> elem_of st b.
Proof. unfold elem_of, hole. cbn. tauto. Qed.
Lemma acyc_hole rk st a o : acyc rk st -> acyc rk (hole st a o).
Proof.
  intros [A1 A2]. split; cbn; auto. intros T x e o' S E Hi Eo Eh. unfold upd in Eo.
  destruct (Nat.eqb_spec e a); [injection Eo as <-; discriminate|]. eapply A1; eauto.
Qed.
Lemma owned_hole st a o s : wf None st -> l_obj st a = Some o -> holds (o_c o) <> Some s ->
  owned st s = true -> owned (hole st a o) s = true.
Proof.
  intros W Ea Hn. apply owned_ext; cbn.
  - intros b ob Eb Hb. exists b, ob. split; [eapply wf_ob; eauto|]. split; auto.
    rewrite upd_ne; auto. intros ->. congruence.
  - intros z t p E. split; auto. eapply wf_sb; eauto.
  - apply incl_refl.
Qed.
Lemma tight_hole st a o : wf None st -> tight st -> l_obj st a = Some o -> holds (o_c o) = None ->
  tight (hole st a o).
Proof. intros W T Ea Hn s x E. eapply owned_hole; eauto. congruence. Qed.

Lemma hole_obj st a o : l_obj (hole st a o) a = Some (Obj (KNone (is_ref (o_c o))) (o_tok o)).
Proof. cbn. apply upd_eq. Qed.

(** VTable::Destroy does not free the object itself: no object is inside what it holds. *)
Lemma destroy_survives rk n st a o : wf None st -> tight st -> acyc rk st -> l_obj st a = Some o ->
  l_obj (gc n (hole st a o)) a = Some (Obj (KNone (is_ref (o_c o))) (o_tok o)).
Proof.
  intros W T A Ea. rewrite <- (hole_obj st a o).
  destruct (holds (o_c o)) as [S|] eqn:Eh; [|rewrite (gc_id _ _ (tight_hole _ _ _ W T Ea Eh)); auto].
  destruct (is_ref (o_c o)) eqn:Er.
  - apply gc_root. rewrite elem_hole. intro He. pose proof (elem_nonref _ _ _ _ W He Ea). congruence.
  - destruct (gc_high n (Some a) rk (rk S + 1)%Z (hole st a o)) as [_ H].
    + now apply wf_hole.
    + now apply acyc_hole.
    + intros s [x [Ex Hx]]. apply owned_hole; auto; [|eapply T; eauto].
      rewrite Eh. intro E. injection E as <-. destruct Hx as [Hx|Hx]; [lia|].
      pose proof (wf_ct _ _ W _ _ Ea) as C. unfold cvalid in C. cbn in Ex.
      destruct (o_c o); cbn in Eh, Er; try discriminate; injection Eh as ->; destruct C as [? C];
        rewrite C in Ex; injection Ex as <-; exact Hx.
    + apply H. intros U x Ex Hi. exists x. split; auto. left.
      destruct A as [A1 _]. cbn in Ex. pose proof (A1 _ _ _ _ _ Ex Hi Ea Eh). lia.
Qed.
Lemma destroy_eq st a o : l_obj st a = Some o -> (forall b, o_c o <> KNone b) ->
  l_obj (gc (l_ns st) (hole st a o)) a <> None ->
  destroy a st = (Ok tt, gc (l_ns st) (hole st a o)).
Proof.
  intros Ea Hn Hs. unfold destroy, lbind, get_obj. rewrite Ea.
  assert (X : forall c, o_c o = c ->
    (set_content a (KNone (is_ref c)) >>> collect >>> lbind (get_obj a) (fun _ => lret tt)) st =
    (Ok tt, gc (l_ns st) (hole st a o))).
  { intros c Ec. unfold set_content, lbind, get_obj, set_obj, collect, lret. rewrite Ea. cbn.
    rewrite <- Ec. unfold hole in Hs |- *. rewrite Ea. cbn.
    destruct (l_obj (gc (l_ns st) _) a) eqn:E; [reflexivity|exfalso; apply Hs; reflexivity]. }
  destruct (o_c o) eqn:Ec; try (apply (X _ eq_refl)). exfalso; eapply Hn; eauto.
Qed.
Lemma not_none h st a o : wf h st -> l_obj st a = Some o -> h <> Some a -> forall b, o_c o <> KNone b.
Proof. intros W E N b Eb. pose proof (wf_ct _ _ W _ _ E) as C. rewrite Eb in C. auto. Qed.
Lemma destroy_run rk st a o : wf None st -> tight st -> acyc rk st -> l_obj st a = Some o ->
  destroy a st = (Ok tt, gc (l_ns st) (hole st a o)).
Proof.
  intros W T A Ea. apply destroy_eq; auto; [eapply not_none; eauto; discriminate|].
  rewrite (destroy_survives rk); auto. discriminate.
Qed.

Lemma set_content_run st a o c : l_obj st a = Some o ->
  set_content a c st = (Ok tt, set_objs st (upd (l_obj st) a (Some (Obj c (o_tok o))))).
Proof. intro E. unfold set_content, lbind, get_obj, set_obj. now rewrite E, E. Qed.

(** The state after Destroy: its owner sits in a hole, everything else is as before or dead. *)
Definition fill (st : lst) (a : nat) (c : content) (k : option nat) : lst :=
  set_objs st (upd (l_obj st) a (Some (Obj c k))).
Lemma fill_run st a o c : l_obj st a = Some o -> set_content a c st = (Ok tt, fill st a c (o_tok o)).
Proof. apply set_content_run. Qed.
Lemma tight_fill st a o c k : wf (Some a) st -> l_obj st a = Some o -> holds (o_c o) = None ->
  tight st -> tight (fill st a c k).
Proof.
  intros W Ea Hn T s x E. cbn in E. specialize (T _ _ E). revert T. apply owned_ext; cbn.
  - intros b ob Eb Hb. exists b, ob. split; [eapply wf_ob; eauto|]. split; auto.
    rewrite upd_ne; auto. intros ->. congruence.
  - intros z t p Ez. split; auto. eapply wf_sb; eauto.
  - apply incl_refl.
Qed.
Lemma acyc_fill rk st a c k : acyc rk st ->
  (forall T x S, l_sto st T = Some x -> In a (elems x) -> holds c = Some S -> (rk S < rk T)%Z) ->
  acyc rk (fill st a c k).
Proof.
  intros [A1 A2] Hc. split; cbn; auto. intros T x e o' S E Hi Eo Eh. unfold upd in Eo.
  destruct (Nat.eqb_spec e a); [injection Eo as <-; cbn in Eh; subst; eauto|]. eapply A1; eauto.
Qed.

(** Destroying an ordinary object. *)
Lemma destroy_state rk st a o : ok st -> acyc rk st -> l_obj st a = Some o ->
  exists st1, destroy a st = (Ok tt, st1) /\ wf (Some a) st1 /\ tight st1 /\ acyc rk st1 /\
    fr None st st1 /\ shrinks (hole st a o) st1 /\
    l_obj st1 a = Some (Obj (KNone (is_ref (o_c o))) (o_tok o)).
Proof.
  intros [W T] A Ea. exists (gc (l_ns st) (hole st a o)).
  split; [eapply destroy_run; eauto|]. pose proof (wf_hole _ _ _ W Ea) as Wh.
  split; [now apply gc_wf|]. split; [eapply (gc_tight (Some a) (hole st a o)); auto|].
  split; [eapply acyc_shrinks; [apply gc_shrinks|now apply acyc_hole]|].
  split; [|split; [apply gc_shrinks|eapply destroy_survives; eauto]].
  eapply fr_trans; [|apply fr_gc]. eapply fr_then_obj; eauto using fr_refl.
Qed.

(** NullInit and the others. *)
Lemma plain_init_spec rk st a o v : ok st -> acyc rk st -> l_obj st a = Some o -> is_ref (o_c o) = false ->
  exists st', plain_init a v st = (Ok tt, st') /\ ok st' /\ acyc rk st' /\ fr None st st' /\
    l_obj st' a = Some (Obj (KPlain v) (o_tok o)).
Proof.
  intros H A Ea Er. destruct (destroy_state rk st a o H A Ea) as [st1 [E1 [W1 [T1 [A1 [F1 [S1 O1]]]]]]].
  exists (fill st1 a (KPlain v) (o_tok o)). split.
  - unfold plain_init, lbind. rewrite E1. rewrite (fill_run _ _ _ _ O1). reflexivity.
  - split; [split|].
    + unfold fill. eapply (wf_set_content (Some a) None st1 a (Obj (KNone (is_ref (o_c o))) (o_tok o))); eauto.
      exact I.
    + eapply tight_fill; eauto.
    + split; [apply acyc_fill; auto; discriminate|]. split; [|cbn; apply upd_eq].
      unfold fill. eapply fr_then_obj; eauto.
Qed.

(** A lower rank than all. *)
Lemma low_rank (rk : nat -> Z) n r : exists m, (m < r)%Z /\ forall s, s < n -> (m < rk s)%Z.
Proof.
  induction n as [|n [m [Hr IH]]].
  - exists (r - 1)%Z. split; [lia|]. intros s H. lia.
  - exists (Z.min m (rk n - 1)). split; [lia|]. intros s Hs.
    destruct (Nat.eq_dec s n); [subst; lia|]. assert (s < n) by lia. specialize (IH _ H). lia.
Qed.

Definition empty_of (c : nat -> content) (x : sto) : Prop :=
  elems x = [] /\ kind x <> 3 /\ (forall s, holds (c s) = Some s /\ is_ref (c s) = false) /\
  (forall st s, l_sto st s = Some x -> cvalid st (c s)).
Lemma empty_str b : empty_of KStr (SStr b).
Proof. split; [reflexivity|]. split; [discriminate|]. split; [split; reflexivity|]. intros st s E. cbn. eauto. Qed.
Lemma empty_list : empty_of KList (SList []).
Proof. split; [reflexivity|]. split; [discriminate|]. split; [split; reflexivity|]. intros st s E. cbn. eauto. Qed.
Lemma empty_map : empty_of KMap (SMap []).
Proof. split; [reflexivity|]. split; [discriminate|]. split; [split; reflexivity|]. intros st s E. cbn. eauto. Qed.
Lemma cvalid_nonref st c s : cvalid st c -> holds c = Some s -> exists x, l_sto st s = Some x /\ kind x <> 3.
Proof.
  destruct c; cbn; intros H E; try discriminate; try contradiction; injection E as ->; destruct H as [? H];
    rewrite H; eexists; (split; [reflexivity|discriminate]).
Qed.

Lemma init_sto_spec c x rk r st a o : empty_of c x -> ok st -> acyc rk st -> l_obj st a = Some o ->
  is_ref (o_c o) = false ->
  exists st' rk', (destroy a >>> lbind (new_sto x) (fun s => set_content a (c s))) st = (Ok tt, st') /\
    ok st' /\ acyc rk' st' /\ fr None st st' /\
    l_obj st' a = Some (Obj (c (l_ns st)) (o_tok o)) /\ l_sto st' (l_ns st) = Some x /\
    (forall T, T < l_ns st -> rk' T = rk T) /\ (rk' (l_ns st) < r)%Z /\
    (holds (o_c o) = None -> forall b, b <> a -> l_obj st' b = l_obj st b) /\
    (holds (o_c o) = None -> forall T, T < l_ns st -> l_sto st' T = l_sto st T) /\
    l_coins st' = l_coins st.
Proof.
  intros [He [Hk [Hh Hv]]] H A Ea Er.
  destruct (destroy_state rk st a o H A Ea) as [st1 [E1 [W1 [T1 [A1 [F1 [S1 O1]]]]]]].
  pose proof (sh_ns _ _ S1) as Ns. cbn in Ns.
  set (s := l_ns st) in *. set (st2 := add_sto st1 x).
  destruct (low_rank rk s r) as [m [Hm1 Hm2]].
  exists (fill st2 a (c s) (o_tok o)), (upd rk s m).
  assert (W2 : wf (Some a) st2).
  { apply wf_add_sto; auto. intros t k p ->. exfalso; apply Hk; reflexivity. }
  assert (Es : l_sto st2 s = Some x) by (cbn; rewrite Ns; apply upd_eq).
  split.
  { unfold lbind. rewrite E1. unfold new_sto. rewrite Ns. fold s.
    assert (EQ : st2 = LState (l_obj st1) (l_no st1) (upd (l_sto st1) s (Some x)) (S s) (l_tok st1) (l_nt st1) (l_pins st1) (l_coins st1)).
    { unfold st2, add_sto. now rewrite Ns. }
    rewrite <- EQ. rewrite (fill_run st2 a (Obj (KNone (is_ref (o_c o))) (o_tok o)) (c s)); auto. }
  assert (ES : forall T y, l_sto st2 T = Some y -> (T = s /\ y = x) \/ (T < s /\ l_sto st1 T = Some y)).
  { intros T y. cbn. rewrite Ns. unfold upd. destruct (Nat.eqb_spec T s); intro E; [left; split; congruence|right].
    split; auto. pose proof (wf_sb _ _ W1 _ _ E). lia. }
  destruct (Hh s) as [Hh1 Hh2].
  split; [split|].
  - unfold fill. eapply (wf_set_content (Some a) None st2 a (Obj (KNone (is_ref (o_c o))) (o_tok o))); auto.
    + cbn. congruence.
    + pose proof (Hv st2 s Es) as V. destruct (c s); auto; contradiction V.
  - intros T y E. cbn in E. apply (ES T y) in E. destruct E as [[-> ->]|[HT E]].
    + apply owned_spec. left. exists a, (Obj (c s) (o_tok o)). cbn.
      split; [pose proof (wf_ob _ _ W1 _ _ O1); auto|]. split; [apply upd_eq|auto].
    + specialize (T1 _ _ E). revert T1. apply owned_ext; cbn.
      * intros b ob Eb Hb. exists b, ob. split; [eapply wf_ob; eauto|]. split; auto.
        rewrite upd_ne; auto. intros ->. rewrite O1 in Eb. injection Eb as <-. discriminate.
      * intros z t p Ez. pose proof (wf_sb _ _ W1 _ _ Ez). rewrite Ns. split; [lia|]. rewrite upd_ne; auto. lia.
      * apply incl_refl.
  - split; [|split].
    + destruct A1 as [A1 A2].
      assert (OB : forall z y, l_sto st1 z = Some y -> z < s). { intros z y E. pose proof (wf_sb _ _ W1 _ _ E). lia. }
      split.
      * intros T y e oe U E Hi Eo Eh. cbn in E. apply (ES T y) in E. destruct E as [[-> ->]|[HT E]].
        { rewrite He in Hi. inversion Hi. }
        cbn in Eo. unfold upd in Eo. rewrite (upd_ne rk s m T) by lia. destruct (Nat.eqb_spec e a).
        { injection Eo as <-. cbn in Eh. rewrite Hh1 in Eh. injection Eh as <-. rewrite upd_eq. auto. }
        pose proof (A1 _ _ _ _ _ E Hi Eo Eh) as X.
        assert (U < s).
        { pose proof (wf_ct _ _ W1 _ _ Eo) as C. destruct (wf_el _ _ W1 _ _ _ E Hi) as [oe' [Eo' Re]].
          rewrite Eo in Eo'. injection Eo' as <-. pose proof (not_none _ _ _ _ W1 Eo) as NN.
          destruct (o_c oe) eqn:Ec; cbn in Eh, Re; try discriminate; injection Eh as ->;
            destruct C as [? C]; eauto. }
        rewrite upd_ne by lia. exact X.
      * intros z t U p T y Ez E Hi. cbn in Ez, E. apply (ES z) in Ez. apply (ES T) in E.
        destruct Ez as [[-> Ez]|[Hz Ez]]; [exfalso; subst x; apply Hk; reflexivity|].
        destruct E as [[-> ->]|[HT E]]; [rewrite He in Hi; inversion Hi|].
        pose proof (A2 _ _ _ _ _ _ Ez E Hi). destruct (wf_kp _ _ W1 _ _ _ _ Ez) as [w [Ew _]]. apply OB in Ew.
        rewrite !upd_ne by lia. auto.
    + unfold fill. eapply fr_then_obj; [eapply fr_then_add_sto; eauto|exact O1|right; cbn; congruence].
    + split; [cbn; apply upd_eq|]. split; [cbn; rewrite Ns; apply upd_eq|].
      split; [intros T HT; rewrite upd_ne; auto; lia|]. split; [rewrite upd_eq; auto|].
      assert (X : holds (o_c o) = None -> st1 = hole st a o).
      { intro Hn. assert (E2 : destroy a st = (Ok tt, gc (l_ns st) (hole st a o))).
        { destruct H as [W T]. eapply destroy_run; eauto. }
        rewrite E1 in E2. injection E2 as ->. apply gc_id. destruct H. now apply tight_hole. }
      split; [|split].
      * intros Hn b Nb. cbn. rewrite upd_ne by auto. rewrite (X Hn). cbn. now rewrite upd_ne.
      * intros Hn T HT. cbn. rewrite Ns. rewrite upd_ne by lia. now rewrite (X Hn).
      * exact (sh_coins _ _ S1).
Qed.
