(** Proofs about Life.v: making and resolving references and proxies. *)
From Coq Require Import Lia ZArith.
From Verif Require Import Base Float Value Path Life LifeProofs LifeSafe.
Open Scope nat_scope.

(** Only RefData were given to objects. *)
Record samec (st st' : lst) : Prop := {
  sc_no : l_no st' = l_no st;
  sc_ns : l_ns st' = l_ns st;
  sc_sto : l_sto st' = l_sto st;
  sc_pins : l_pins st' = l_pins st;
  sc_coins : l_coins st' = l_coins st;
  sc_some : forall b o, l_obj st b = Some o -> exists k, l_obj st' b = Some (Obj (o_c o) k);
  sc_none : forall b, l_obj st b = None -> l_obj st' b = None
}.
Lemma sc_back st st' b o : samec st st' -> l_obj st' b = Some o -> exists k, l_obj st b = Some (Obj (o_c o) k).
Proof.
  intros H E. destruct (l_obj st b) as [o0|] eqn:E0.
  - destruct (sc_some _ _ H _ _ E0) as [k Ek]. rewrite E in Ek. injection Ek as ->. cbn. destruct o0; eauto.
  - rewrite (sc_none _ _ H _ E0) in E. discriminate.
Qed.
Lemma samec_refl st : samec st st.
Proof. constructor; auto. intros b [c k] E. eauto. Qed.
Lemma samec_elem st st' b : samec st st' -> elem_of st' b -> elem_of st b.
Proof. intros H [s [x [E Hi]]]. rewrite (sc_sto _ _ H) in E. exists s, x. auto. Qed.
Lemma samec_tight st st' : samec st st' -> (forall a o, l_obj st a = Some o -> a < l_no st) ->
  (forall z x, l_sto st z = Some x -> z < l_ns st) -> tight st -> tight st'.
Proof.
  intros H B1 B2 T s x E. rewrite (sc_sto _ _ H) in E. specialize (T _ _ E). revert T. apply owned_ext.
  - intros b o Eb Hb. destruct (sc_some _ _ H _ _ Eb) as [k Ek]. exists b, (Obj (o_c o) k).
    rewrite (sc_no _ _ H). eauto.
  - intros z t p Ez. rewrite (sc_sto _ _ H), (sc_ns _ _ H). eauto.
  - rewrite (sc_pins _ _ H). apply incl_refl.
Qed.
Lemma samec_acyc rk st st' : samec st st' -> acyc rk st -> acyc rk st'.
Proof.
  intros H [A1 A2]. split; rewrite (sc_sto _ _ H); auto.
  intros T x e o S E Hi Eo Eh. destruct (sc_back _ _ _ _ H Eo) as [k Ek]. eapply A1; eauto.
Qed.
Lemma samec_fr st st' : samec st st' -> fr None st st'.
Proof.
  intro H. constructor.
  - rewrite (sc_no _ _ H). auto.
  - rewrite (sc_ns _ _ H). auto.
  - apply (sc_pins _ _ H).
  - intros a _. apply (sc_none _ _ H).
  - rewrite (sc_sto _ _ H). auto.
  - rewrite (sc_sto _ _ H). intros; congruence.
  - intros b o _ E N. destruct (sc_some _ _ H _ _ E) as [k Ek]. exists (Obj (o_c o) k).
    split; auto. split; auto. intro He. apply N. eapply samec_elem; eauto.
Qed.

Lemma ensure_spec h st t o : wf h st -> l_obj st t = Some o -> is_ref (o_c o) = false ->
  exists k st', ensure_ref t st = (Ok k, st') /\ wf h st' /\ samec st st' /\
    l_obj st' t = Some (Obj (o_c o) (Some k)) /\ l_tok st' k = true /\
    (forall b, b <> t -> l_obj st' b = l_obj st b).
Proof.
  intros W Et Er. unfold ensure_ref, lbind, get_obj. rewrite Et. destruct (o_tok o) as [k|] eqn:Ek.
  - exists k, st. split; [reflexivity|]. split; auto. split; [apply samec_refl|].
    split; [destruct o; cbn in *; congruence|]. split; auto. eapply (wf_tv _ _ W); eauto.
  - unfold new_tok. cbn. unfold set_obj. cbn. rewrite Et. cbn.
    exists (l_nt st), (set_objs (add_tok st) (upd (l_obj st) t (Some (Obj (o_c o) (Some (l_nt st)))))).
    split; [reflexivity|]. split.
    + pose proof (wf_add_tok _ _ W) as W'.
      change (upd (l_obj st) t) with (upd (l_obj (add_tok st)) t).
      eapply (wf_set_obj h h (add_tok st) t o); auto.
      * unfold ccond. cbn. pose proof (wf_ct _ _ W _ _ Et) as C. destruct (o_c o); auto; discriminate.
      * cbn. intros k R K. congruence.
      * cbn. intros k E. injection E as <-. lia.
      * cbn. intros k _ E. injection E as <-. split; [apply upd_eq|]. intros b ob N Eb Rb Kb.
        pose proof (wf_tb _ _ W _ _ _ Eb Kb). lia.
    + split; [|split; [cbn; apply upd_eq|split; [cbn; apply upd_eq|cbn; intros b N; now apply upd_ne]]].
      constructor; cbn; auto.
      * intros b ob Eb. unfold upd. destruct (Nat.eqb_spec b t); [subst; rewrite Et in Eb; injection Eb as <-; eauto|].
        destruct ob; eauto.
      * intros b Eb. rewrite upd_ne; auto. congruence.
Qed.

Definition stays (c : content) : Prop :=
  match c with KPlain VNull => False | KPlain _ | KRef _ => True | _ => False end.
Definition pl (st st' : lst) : Prop := forall b c k, l_obj st b = Some (Obj c k) ->
  stays c -> ~ elem_of st b -> exists k', l_obj st' b = Some (Obj c k').

Definition oldref (a : nat) (o : obj) : option nat := if is_ref (o_c o) then None else Some a.

(** The second half of RefInit. *)
Lemma link_spec rk st a oa t ot : wf (Some a) st -> tight st -> acyc rk st ->
  l_obj st a = Some oa -> holds (o_c oa) = None -> (is_ref (o_c oa) = true \/ o_tok oa = None) ->
  ~ elem_of st a -> t <> a -> l_obj st t = Some ot -> is_ref (o_c ot) = false ->
  exists st' k, lbind (ensure_ref t) (fun k => set_obj a (Obj (KRef t) (Some k))) st = (Ok tt, st') /\
    ok st' /\ acyc rk st' /\ fr (oldref a oa) st st' /\
    l_obj st' a = Some (Obj (KRef t) (Some k)) /\ l_obj st' t = Some (Obj (o_c ot) (Some k)) /\
    l_tok st' k = true /\
    (forall b o, b <> a -> l_obj st b = Some o -> exists k', l_obj st' b = Some (Obj (o_c o) k')) /\
    (forall b, b <> a -> b <> t -> l_obj st' b = l_obj st b).
Proof.
  intros W T A Ea Hn Ho He Hta Et Er.
  destruct (ensure_spec _ _ _ _ W Et Er) as [k [st1 [E1 [W1 [S1 [Et1 [K1 Hb1]]]]]]].
  assert (Ea1 : l_obj st1 a = Some oa) by (rewrite Hb1; auto).
  exists (set_objs st1 (upd (l_obj st1) a (Some (Obj (KRef t) (Some k))))), k.
  split; [unfold lbind; rewrite E1; unfold set_obj; now rewrite Ea1|].
  assert (T1 : tight st1). { eapply samec_tight; eauto; [apply (wf_ob _ _ W)|apply (wf_sb _ _ W)]. }
  assert (He1 : ~ elem_of st1 a). { intro X. apply He. eapply samec_elem; eauto. }
  split; [split|].
  - eapply (wf_set_ref (Some a) st1 a oa t (Obj (o_c ot) (Some k)) k); auto.
  - eapply (tight_fill st1 a oa); eauto.
  - split; [apply acyc_fill; [eapply samec_acyc; eauto|discriminate]|].
    split.
    + eapply fr_then_obj; [apply fr_weak; eapply samec_fr; eauto|exact Ea1|].
      unfold oldref. destruct (is_ref (o_c oa)) eqn:R; [right; reflexivity|left; reflexivity].
    + split; [cbn; apply upd_eq|]. split; [cbn; rewrite upd_ne; auto|]. split; [exact K1|].
      split; [intros b o Nb Eb; cbn; rewrite upd_ne by auto; eapply sc_some; eauto|].
      intros b Na Nt. cbn. rewrite upd_ne by auto. auto.
Qed.

(** The second half of ProxyInit. *)
Lemma plink_spec rk st a oa t ot (p : L path) q : wf (Some a) st -> tight st -> acyc rk st ->
  l_obj st a = Some oa -> holds (o_c oa) = None -> (is_ref (o_c oa) = true \/ o_tok oa = None) ->
  ~ elem_of st a -> t <> a -> l_obj st t = Some ot -> is_ref (o_c ot) = false ->
  (forall st', l_sto st' = l_sto st -> p st' = (Ok q, st')) ->
  exists st', lbind (ensure_ref t) (fun k => dl o <- get_obj t; dl q <- p;
      dl s <- new_sto (SProxy t (holds (o_c o)) q); set_obj a (Obj (KProxy s) (Some k))) st = (Ok tt, st') /\
    ok st' /\ acyc rk st' /\ fr (oldref a oa) st st' /\
    (exists k, l_obj st' a = Some (Obj (KProxy (l_ns st)) (Some k))) /\
    l_sto st' (l_ns st) = Some (SProxy t (holds (o_c ot)) q) /\
    (forall b o, b <> a -> l_obj st b = Some o -> exists k', l_obj st' b = Some (Obj (o_c o) k')).
Proof.
  intros W T A Ea Hn Ho He Hta Et Er Hp.
  destruct (ensure_spec _ _ _ _ W Et Er) as [k [st1 [E1 [W1 [S1 [Et1 [K1 Hb1]]]]]]].
  assert (Ea1 : l_obj st1 a = Some oa) by (rewrite Hb1; auto).
  set (x := SProxy t (holds (o_c ot)) q). set (st2 := add_sto st1 x).
  exists (set_objs st2 (upd (l_obj st2) a (Some (Obj (KProxy (l_ns st1)) (Some k))))).
  split.
  { unfold lbind. rewrite E1. unfold get_obj. rewrite Et1. rewrite (Hp st1 (sc_sto _ _ S1)).
    unfold new_sto. cbn [o_c]. fold x. change (LState (l_obj st1) (l_no st1) (upd (l_sto st1) (l_ns st1) (Some x)) (S (l_ns st1)) (l_tok st1) (l_nt st1) (l_pins st1) (l_coins st1)) with st2.
    unfold set_obj. change (l_obj st2 a) with (l_obj st1 a). now rewrite Ea1. }
  assert (T1 : tight st1). { eapply samec_tight; eauto; [apply (wf_ob _ _ W)|apply (wf_sb _ _ W)]. }
  assert (He1 : ~ elem_of st1 a). { intro X. apply He. eapply samec_elem; eauto. }
  assert (A1 : acyc rk st1) by (eapply samec_acyc; eauto).
  assert (NNt : forall b, o_c ot <> KNone b). { apply (not_none _ _ _ _ W Et). congruence. }
  assert (V : cvalid st1 (o_c ot)).
  { pose proof (wf_ct _ _ W1 _ _ Et1) as C. cbn in C. destruct (o_c ot); auto; try discriminate Er.
    exfalso; eapply NNt; eauto. }
  assert (W2 : wf (Some a) st2).
  { apply wf_add_sto; auto. intros t' k' p' E. injection E as <- <- <-.
    split; [eapply wf_ob; eauto|]. intros s Es. eapply cvalid_nonref; eauto. }
  assert (ES : forall z y, l_sto st2 z = Some y -> (z = l_ns st1 /\ y = x) \/ (z < l_ns st1 /\ l_sto st1 z = Some y)).
  { intros z y. cbn. unfold upd. destruct (Nat.eqb_spec z (l_ns st1)); intro E; [left; split; congruence|right].
    split; auto. eapply wf_sb; eauto. }
  assert (ESn : l_sto st2 (l_ns st1) = Some x) by (cbn; apply upd_eq).
  assert (He2 : ~ elem_of st2 a).
  { intros [z [y [Ez Hi]]]. apply ES in Ez. destruct Ez as [[-> ->]|[_ Ez]]; [inversion Hi|]. apply He1. exists z, y. auto. }
  split; [split|].
  - eapply (wf_set_proxy (Some a) st2 a oa t (Obj (o_c ot) (Some k)) k); eauto.
  - intros z y E. cbn in E. apply (ES z) in E. destruct E as [[-> ->]|[Hz E]].
    + apply owned_spec. left. exists a, (Obj (KProxy (l_ns st1)) (Some k)). cbn.
      split; [eapply wf_ob; eauto|]. split; [apply upd_eq|auto].
    + specialize (T1 _ _ E). revert T1. apply owned_ext; cbn.
      * intros b ob Eb Hb. exists b, ob. split; [eapply wf_ob; eauto|]. split; auto.
        rewrite upd_ne; auto. intros ->. congruence.
      * intros w t' p' Ew. pose proof (wf_sb _ _ W1 _ _ Ew). split; [lia|]. rewrite upd_ne; auto. lia.
      * apply incl_refl.
  - split; [|split; [|split; [|split]]].
    + destruct A1 as [A1 A2]. split.
      * intros U y e o S E Hi Eo Eh. cbn in E. apply (ES U) in E. destruct E as [[-> ->]|[_ E]]; [inversion Hi|].
        cbn in Eo. unfold upd in Eo. destruct (Nat.eqb_spec e a).
        { exfalso. apply He1. subst. exists U, y. auto. }
        eapply A1; eauto.
      * intros z t' S p' U y Ez E Hi. cbn in Ez, E. apply (ES z) in Ez. apply (ES U) in E.
        destruct E as [[-> ->]|[_ E]]; [inversion Hi|]. destruct Ez as [[-> Ez]|[_ Ez]]; [|eapply A2; eauto].
        injection Ez as -> Ek _. eapply A1; [exact E|exact Hi|exact Et1|]. symmetry. exact Ek.
    + eapply fr_then_obj; [eapply fr_then_add_sto; [exact W1|apply fr_weak; eapply samec_fr; eauto|reflexivity]|exact Ea1|].
      unfold oldref. destruct (is_ref (o_c oa)) eqn:R; [right; reflexivity|left; reflexivity].
    + exists k. cbn. rewrite (sc_ns _ _ S1). apply upd_eq.
    + cbn. rewrite (sc_ns _ _ S1). apply upd_eq.
    + intros b o Nb Eb. cbn. rewrite upd_ne by auto. eapply sc_some; eauto.
Qed.

(** RefInit and ProxyInit of an object that holds no storage: a new VariantRef or one that is a
    reference. *)
Lemma destroy_simple st a o : ok st -> l_obj st a = Some o -> holds (o_c o) = None ->
  destroy a st = (Ok tt, hole st a o).
Proof.
  intros [W T] Ea Hn. pose proof (tight_hole _ _ _ W T Ea Hn) as Th.
  rewrite <- (gc_id (l_ns st) _ Th). apply destroy_eq; auto; [eapply not_none; eauto; discriminate|].
  rewrite (gc_id _ _ Th), hole_obj. discriminate.
Qed.

Lemma ref_init_simple rk st a oa t ot : ok st -> acyc rk st ->
  l_obj st a = Some oa -> holds (o_c oa) = None -> (is_ref (o_c oa) = true \/ o_tok oa = None) ->
  ~ elem_of st a -> t <> a -> l_obj st t = Some ot -> is_ref (o_c ot) = false ->
  exists st' k, ref_init a t st = (Ok tt, st') /\ ok st' /\ acyc rk st' /\ fr (oldref a oa) st st' /\
    l_obj st' a = Some (Obj (KRef t) (Some k)) /\ l_obj st' t = Some (Obj (o_c ot) (Some k)) /\
    (forall b o, b <> a -> l_obj st b = Some o -> exists k', l_obj st' b = Some (Obj (o_c o) k')).
Proof.
  intros H A Ea Hn Ho He Hta Et Er. destruct H as [W T].
  assert (Hh : l_obj (hole st a oa) a = Some (Obj (KNone (is_ref (o_c oa))) (o_tok oa))) by apply hole_obj.
  destruct (link_spec rk (hole st a oa) a _ t ot (wf_hole _ _ _ W Ea) (tight_hole _ _ _ W T Ea Hn) (acyc_hole _ _ a oa A) Hh)
    as [st' [k [E [O [A' [F [Ra [Rt [K [Hb Hbt]]]]]]]]]]; auto.
  - cbn. rewrite upd_ne; auto.
  - exists st', k. split; [unfold ref_init, lbind at 1; rewrite (destroy_simple st a oa); auto; split; auto|].
    split; auto. split; auto. split; [|split; auto; split; auto].
    + eapply fr_trans; [|exact F]. apply fr_weak. eapply fr_then_obj; [apply fr_refl|exact Ea|right; reflexivity].
    + intros b o Nb Eb. apply Hb; auto. cbn. rewrite upd_ne; auto.
Qed.
Lemma proxy_init_simple rk st a oa t ot (p : L path) q : ok st -> acyc rk st ->
  l_obj st a = Some oa -> holds (o_c oa) = None -> (is_ref (o_c oa) = true \/ o_tok oa = None) ->
  ~ elem_of st a -> t <> a -> l_obj st t = Some ot -> is_ref (o_c ot) = false ->
  (forall st', l_sto st' = l_sto st -> p st' = (Ok q, st')) ->
  exists st', proxy_init a t p st = (Ok tt, st') /\ ok st' /\ acyc rk st' /\ fr (oldref a oa) st st' /\
    (exists k, l_obj st' a = Some (Obj (KProxy (l_ns st)) (Some k))) /\
    l_sto st' (l_ns st) = Some (SProxy t (holds (o_c ot)) q) /\
    (forall b o, b <> a -> l_obj st b = Some o -> exists k', l_obj st' b = Some (Obj (o_c o) k')).
Proof.
  intros H A Ea Hn Ho He Hta Et Er Hp. destruct H as [W T].
  assert (Hh : l_obj (hole st a oa) a = Some (Obj (KNone (is_ref (o_c oa))) (o_tok oa))) by apply hole_obj.
  destruct (plink_spec rk (hole st a oa) a _ t ot p q (wf_hole _ _ _ W Ea) (tight_hole _ _ _ W T Ea Hn) (acyc_hole _ _ a oa A) Hh)
    as [st' [E [O [A' [F [Ra [Rs Hb]]]]]]]; auto.
  - cbn. rewrite upd_ne; auto.
  - exists st'. split; [unfold proxy_init, lbind at 1; rewrite (destroy_simple st a oa); auto; split; auto|].
    split; auto. split; auto. split; [|split; auto; split; auto].
    + eapply fr_trans; [|exact F]. apply fr_weak. eapply fr_then_obj; [apply fr_refl|exact Ea|right; reflexivity].
    + intros b o Nb Eb. apply Hb; auto. cbn. rewrite upd_ne; auto.
Qed.

(** ** What lies below an object *)
Inductive down (st : lst) (x : nat) : nat -> Prop :=
| down_refl : down st x x
| down_step v ov s y e : down st x v -> l_obj st v = Some ov -> holds (o_c ov) = Some s ->
    l_sto st s = Some y -> In e (elems y) -> down st x e.
Lemma down_trans st x y z : down st x y -> down st y z -> down st x z.
Proof. intros H1 H2. induction H2; auto. eapply down_step; eauto. Qed.
Lemma down_nonref h st x ox u : wf h st -> l_obj st x = Some ox -> is_ref (o_c ox) = false ->
  down st x u -> exists ou, l_obj st u = Some ou /\ is_ref (o_c ou) = false.
Proof. intros W Ex Er H. induction H; eauto. eapply (wf_el _ _ W); eauto. Qed.

(** When a proxy is resolved and gives up the storage it keeps, the object it was resolved to
    stays alive. *)
Lemma proxy_gc rk n st a oa z x ox keep p u : ok st -> acyc rk st ->
  l_obj st a = Some oa -> o_c oa = KProxy z -> l_sto st z = Some (SProxy x keep p) ->
  l_obj st x = Some ox -> is_ref (o_c ox) = false -> down st x u ->
  l_obj (gc n (hole st a oa)) u = l_obj st u.
Proof.
  intros [W T] [A1 A2] Ea Ec Ez Ex Er Hd.
  set (C := fun s => exists y, l_sto st s = Some y /\ s <> z /\
    (is_proxy_sto y \/ (forall S, keep = Some S -> (rk S < rk s)%Z) \/
     exists v ov, down st x v /\ l_obj st v = Some ov /\ holds (o_c ov) = Some s)).
  assert (UP : forall v, down st x v -> forall U y, l_sto st U = Some y -> In v (elems y) -> C U).
  { intros v Hv U y EU Hi. exists y. split; auto. split; [intros ->; rewrite Ez in EU; injection EU as <-; inversion Hi|].
    destruct Hv as [|v0 ov s y0 v Hv0 Ev0 Hh0 Es0 Hi0].
    - right; left. intros S ->. eapply A2; eauto.
    - right; right. assert (U = s) by (eapply (wf_dj _ _ W U s); eauto). subst. eauto. }
  assert (P : protected (hole st a oa) C).
  { intros s [y [Ey [Nz Hc]]]. split; [eauto|].
    assert (D : (is_proxy_sto y \/ (forall S, keep = Some S -> (rk S < rk s)%Z)) \/
      exists v ov, down st x v /\ l_obj st v = Some ov /\ holds (o_c ov) = Some s) by tauto.
    destruct D as [D|[v [ov [Hv [Ev Hh]]]]].
    - pose proof (T _ _ Ey) as O. apply owned_spec in O.
      destruct O as [[b [ob [Hb [Eb Hob]]]]|[[z' [t' [p' [Hz' Ez']]]]|O]].
      + left. exists b, ob. assert (b <> a) by (intros ->; rewrite Ea in Eb; injection Eb as <-; rewrite Ec in Hob; cbn in Hob; congruence).
        split; auto. split; [cbn; rewrite upd_ne; auto|]. split; auto.
        cbn. intros U w EU Hi. exists w. split; auto.
        split; [intros ->; rewrite Ez in EU; injection EU as <-; inversion Hi|].
        destruct D as [D|D].
        * exfalso. pose proof (elem_nonref None st b ob W) as X. destruct (wf_el _ _ W _ _ _ EU Hi) as [ob' [Eb' Rb]].
          rewrite Eb in Eb'. injection Eb' as <-. pose proof (wf_ct _ _ W _ _ Eb) as Cb. unfold cvalid in Cb.
          destruct (o_c ob); cbn in Hob, Rb; try discriminate; injection Hob as ->; destruct Cb as [? Cb];
            rewrite Ey in Cb; injection Cb as ->; exact D.
        * right; left. intros S HS. pose proof (A1 _ _ _ _ _ EU Hi Eb Hob). specialize (D _ HS). lia.
      + right; left. exists z', t', p'. split; auto. split; auto.
        exists (SProxy t' (Some s) p'). split; auto. split; [|left; exact I].
        intros ->. rewrite Ez in Ez'. injection Ez' as _ -> _. destruct D as [D|D].
        * destruct (wf_kp _ _ W _ _ _ _ Ez) as [w [Ew Kw]]. rewrite Ey in Ew. injection Ew as ->.
          destruct w; try contradiction D. apply Kw. reflexivity.
        * specialize (D _ eq_refl). lia.
      + auto.
    - left. exists v, ov. split; [exact (wf_ob _ _ W _ _ Ev)|].
      assert (v <> a). { intros ->. destruct (down_nonref _ _ _ _ _ W Ex Er Hv) as [ov' [Ev' Rv]].
        rewrite Ea in Ev'. injection Ev' as <-. rewrite Ec in Rv. discriminate. }
      split; [cbn; rewrite upd_ne; auto|]. split; auto. cbn. intros U w EU Hi. eapply UP; eauto. }
  destruct (gc_protect n _ _ P) as [_ G]. rewrite G.
  - cbn. rewrite upd_ne; auto. intros ->. destruct (down_nonref _ _ _ _ _ W Ex Er Hd) as [ov' [Ev' Rv]].
    rewrite Ea in Ev'. injection Ev' as <-. rewrite Ec in Rv. discriminate.
  - cbn. intros U y EU Hi. eapply UP; eauto.
Qed.

(** RefInit on a proxy that was resolved to [u]. *)
Lemma ref_init_proxy rk st a oa z x ox keep p u : ok st -> acyc rk st ->
  l_obj st a = Some oa -> o_c oa = KProxy z -> l_sto st z = Some (SProxy x keep p) ->
  l_obj st x = Some ox -> is_ref (o_c ox) = false -> down st x u ->
  exists st' k, ref_init a u st = (Ok tt, st') /\ ok st' /\ acyc rk st' /\ fr None st st' /\ pl st st' /\
    l_obj st' a = Some (Obj (KRef u) (Some k)) /\ l_tok st' k = true /\
    (exists ou, l_obj st u = Some ou /\ l_obj st' u = Some (Obj (o_c ou) (Some k)) /\ is_ref (o_c ou) = false) /\
    (forall b, b <> a -> b <> u -> ~ elem_of st b -> l_obj st b <> None -> l_obj st' b = l_obj st b).
Proof.
  intros H A Ea Ec Ez Ex Er Hd. pose proof H as [W T].
  destruct (down_nonref _ _ _ _ _ W Ex Er Hd) as [ou [Eu Ru]].
  destruct (destroy_state rk st a oa H A Ea) as [st1 [E1 [W1 [T1 [A1 [F1 [S1 O1]]]]]]].
  assert (Na : ~ elem_of st a). { intro X. pose proof (elem_nonref _ _ _ _ W X Ea) as Y. rewrite Ec in Y. discriminate. }
  assert (Na1 : ~ elem_of st1 a). { intro X. apply Na. eapply (shrinks_elem _ _ a S1) in X. now rewrite elem_hole in X. }
  assert (Nu : u <> a). { intros ->. rewrite Ea in Eu. injection Eu as <-. rewrite Ec in Ru. discriminate. }
  assert (Eu1 : l_obj st1 u = Some ou).
  { assert (X : destroy a st = (Ok tt, gc (l_ns st) (hole st a oa))) by (eapply destroy_run; eauto).
    rewrite E1 in X. injection X as ->. rewrite (proxy_gc rk (l_ns st) st a oa z x ox keep p u); auto. }
  destruct (link_spec rk st1 a _ u ou W1 T1 A1 O1) as [st' [k [E2 [O2 [A2 [F2 [Ra [Rt [K [Hb Hbt]]]]]]]]]]; auto.
  { left. cbn. now rewrite Ec. }
  exists st', k. split; [unfold ref_init, lbind at 1; rewrite E1; exact E2|].
  split; auto. split; auto. split.
  { eapply fr_trans; [exact F1|]. unfold oldref in F2. cbn in F2. rewrite Ec in F2. exact F2. }
  assert (ROOT : forall b ob, b <> a -> ~ elem_of st b -> l_obj st b = Some ob -> l_obj st1 b = Some ob).
  { intros b ob Nb Hb' Eb. destruct (sh_obj _ _ S1 b) as [X|X].
    - exfalso. apply Hb'. assert (Y : elem_of (hole st a oa) b).
      { eapply (sh_elem _ _ S1); [|exact X]. cbn. rewrite upd_ne; eauto. }
      now rewrite elem_hole in Y.
    - rewrite X. cbn. rewrite upd_ne; auto. }
  split; [|split; [auto|split; [auto|split; [exists ou; auto|]]]];
    [|intros b Nba Nbu Hb' Lb; destruct (l_obj st b) as [ob|] eqn:Eb; [|congruence]; rewrite Hbt; auto].
  intros b v kb Eb Nv Nb. assert (b <> a) by (intros ->; rewrite Ea in Eb; injection Eb as ->; cbn in Ec; rewrite Ec in Nv; contradiction).
  assert (Eb1 : l_obj st1 b = Some (Obj v kb)).
  { apply ROOT; auto. }
  destruct (Hb _ _ H0 Eb1) as [k' Ek']. eauto.
Qed.
