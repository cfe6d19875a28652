(** Proofs about Life.v: elements, growing and shrinking. *)
From Coq Require Import Lia ZArith.
From Verif Require Import Base Float Value Path Life LifeProofs LifeSafe LifeRefs.
Open Scope nat_scope.

(** ** Looking for an element *)
Lemma find_key_In m k u : find_key m k = Some u -> In u (map snd m).
Proof.
  unfold find_key. destruct (find _ m) as [[k' a]|] eqn:E; [|discriminate]. intro H. injection H as ->.
  apply find_some in E. destruct E as [E _]. apply in_map_iff. exists (k', u). auto.
Qed.
Lemma nth_elem_In l i u : nth_elem l i = Some u -> In u l.
Proof. unfold nth_elem. apply nth_error_In. Qed.

Lemma get_elem_spec st t o e c : wf None st -> l_obj st t = Some o -> is_ref (o_c o) = false ->
  (exists x, get_elem t e c st = (Throw x, st)) \/
  (c = false /\ get_elem t e c st = (Ok None, st)) \/
  (exists u s y, get_elem t e c st = (Ok (Some u), st) /\ holds (o_c o) = Some s /\
     l_sto st s = Some y /\ In u (elems y)).
Proof.
  intros W Et Er. pose proof (wf_ct _ _ W _ _ Et) as C. unfold get_elem, lbind, get_obj, get_sto, lret, lfail.
  rewrite Et. destruct (o_c o) as [b|v|s|s|s|s|s] eqn:Ec; try discriminate.
  - (* plain *) destruct v; destruct e, c; eauto 6.
  - destruct e, c; eauto 6.
  - destruct C as [l El]. destruct e as [k|i]; [destruct c; eauto 6|]. rewrite El.
    destruct (nth_elem l i) as [u|] eqn:En; [|destruct c; eauto 6].
    right; right. exists u, s, (SList l). cbn. split; auto. split; auto. split; auto. eapply nth_elem_In; eauto.
  - destruct C as [m Em]. destruct e as [k|i]; [|destruct c; eauto 6]. rewrite Em.
    destruct (find_key m k) as [u|] eqn:En; [|destruct c; eauto 6].
    right; right. exists u, s, (SMap m). cbn. split; auto. split; auto. split; auto. eapply find_key_In; eauto.
Qed.

Lemma get_path_const_spec p c : forall st t o, wf None st -> l_obj st t = Some o -> is_ref (o_c o) = false ->
  (exists x, get_path_const t p c st = (Throw x, st)) \/
  (c = false /\ get_path_const t p c st = (Ok None, st)) \/
  (exists u, get_path_const t p c st = (Ok (Some u), st) /\ down st t u).
Proof.
  induction p as [|e p IH]; intros st t o W Et Er.
  - right; right. exists t. split; auto. constructor.
  - cbn [get_path_const]. unfold lbind.
    destruct (get_elem_spec st t o e c W Et Er) as [[x ->]|[[-> ->]|[u [s [y [-> [Hh [Es Hi]]]]]]]]; eauto.
    assert (Hd : down st t u) by (eapply down_step; eauto using down_refl).
    destruct p as [|e' p']; [right; right; exists u; auto|].
    destruct (wf_el _ _ W _ _ _ Es Hi) as [ou [Eu Ru]].
    destruct (IH st u ou W Eu Ru) as [[x ->]|[[-> ->]|[w [-> Hw]]]]; eauto.
    right; right. exists w. split; auto. eapply down_trans; eauto.
Qed.

(** ** New objects *)
Fixpoint adds (st : lst) (cs : list content) : lst :=
  match cs with [] => st | c :: r => adds (add_obj st c) r end.
Lemma new_objs_run cs : forall st, new_objs cs st = (Ok (seq (l_no st) (List.length cs)), adds st cs).
Proof.
  induction cs as [|c cs IH]; intro st; [reflexivity|].
  cbn [new_objs List.length seq adds]. unfold lbind at 1. cbn [new_obj].
  change (new_obj c st) with (Ok (l_no st), add_obj st c). cbv beta iota.
  unfold lbind. rewrite IH. reflexivity.
Qed.
Lemma adds_rest cs : forall st, l_no (adds st cs) = l_no st + List.length cs /\ l_sto (adds st cs) = l_sto st /\
  l_ns (adds st cs) = l_ns st /\ l_pins (adds st cs) = l_pins st /\ l_coins (adds st cs) = l_coins st.
Proof.
  induction cs as [|c cs IH]; intro st; cbn [adds List.length]; [split; [lia|auto]|].
  destruct (IH (add_obj st c)) as [H1 [H2 [H3 [H4 H5]]]]. rewrite H1, H2, H3, H4, H5. cbn. split; [lia|auto].
Qed.
Lemma adds_old cs : forall st b, b < l_no st -> l_obj (adds st cs) b = l_obj st b.
Proof.
  induction cs as [|c cs IH]; intros st b Hb; cbn [adds]; auto. rewrite IH; [|cbn; lia]. cbn. apply upd_ne. lia.
Qed.
Lemma adds_new cs : forall st b, In b (seq (l_no st) (List.length cs)) ->
  exists c, In c cs /\ l_obj (adds st cs) b = Some (Obj c None).
Proof.
  induction cs as [|c cs IH]; intros st b; cbn [adds List.length seq]; [intros []|].
  intros [<-|Hb].
  - exists c. split; [now left|]. rewrite adds_old by (cbn; lia). cbn. apply upd_eq.
  - destruct (IH (add_obj st c) b) as [c' [H1 H2]]; [exact Hb|]. exists c'. split; [now right|auto].
Qed.
Lemma adds_own cs : forall st c, In c cs -> exists b, In b (seq (l_no st) (List.length cs)) /\ l_obj (adds st cs) b = Some (Obj c None).
Proof.
  induction cs as [|c0 cs IH]; intros st c; cbn [adds List.length seq]; [intros []|].
  intros [<-|Hc].
  - exists (l_no st). split; [now left|]. rewrite adds_old by (cbn; lia). cbn. apply upd_eq.
  - destruct (IH (add_obj st c0) c Hc) as [b [H1 H2]]. exists b. split; [right; exact H1|auto].
Qed.
Lemma adds_wf cs : forall h st, wf h st -> (forall c, In c cs -> cvalid st c) -> wf h (adds st cs).
Proof.
  induction cs as [|c cs IH]; intros h st W Hc; cbn [adds]; auto.
  apply IH; [apply wf_add_obj; auto; apply Hc; now left|]. intros c' Hc'. apply (Hc c' (or_intror Hc')).
Qed.
Lemma adds_fr x cs : forall h st st1, wf h st1 -> (forall c, In c cs -> cvalid st1 c) -> fr x st st1 -> fr x st (adds st1 cs).
Proof.
  induction cs as [|c cs IH]; intros h st st1 W Hc F; cbn [adds]; auto.
  assert (W' : wf h (add_obj st1 c)) by (apply wf_add_obj; auto; apply Hc; now left).
  apply (IH h); auto; [intros c' Hc'; apply (Hc c' (or_intror Hc'))|]. eapply fr_then_add_obj; eauto.
Qed.
Lemma adds_app cs ds : forall st, adds st (cs ++ ds) = adds (adds st cs) ds.
Proof. induction cs; intro st; cbn; auto. Qed.

Lemma cvalid_of h st a o : wf h st -> l_obj st a = Some o -> is_ref (o_c o) = false -> h <> Some a -> cvalid st (o_c o).
Proof.
  intros W E R N. pose proof (wf_ct _ _ W _ _ E) as C. pose proof (not_none _ _ _ _ W E N) as X.
  destruct (o_c o); auto; try discriminate. exfalso; eapply X; eauto.
Qed.

Lemma contents_run l : forall st, wf None st ->
  (forall e, In e l -> exists o, l_obj st e = Some o /\ is_ref (o_c o) = false) ->
  exists cs, contents l st = (Ok cs, st) /\ List.length cs = List.length l /\
    (forall c, In c cs -> exists e o, In e l /\ l_obj st e = Some o /\ o_c o = c) /\
    (forall e o, In e l -> l_obj st e = Some o -> In (o_c o) cs).
Proof.
  induction l as [|a l IH]; intros st W H.
  - exists []. split; [reflexivity|]. split; [reflexivity|]. split; [intros ? []|intros ? ? []].
  - destruct (H a (or_introl eq_refl)) as [o [Ea Ra]].
    destruct (IH st W) as [cs [E [Hl [H1 H2]]]]; [intros e He; apply H; now right|].
    exists (o_c o :: cs). split; [|split; [cbn; congruence|split]].
    + cbn [contents]. unfold lbind at 1, get_obj. rewrite Ea. cbv beta iota. unfold lbind. rewrite E, Ra. reflexivity.
    + intros c [<-|Hc]; [exists a, o; auto using in_eq|]. destruct (H1 _ Hc) as [e [oe [? [? ?]]]].
      exists e, oe. split; [now right|auto].
    + intros e oe [<-|He] Ee; [left; congruence|right; eauto].
Qed.

(** ** What the functions that make elements leave alone: storages of rank [r] and more, those who
    hold them, references, and the values of variables. *)
Record low (rk : nat -> Z) (r : Z) (st st' : lst) : Prop := {
  lw_sto : forall T x, l_sto st T = Some x -> ((r <= rk T)%Z \/ is_proxy_sto x) -> l_sto st' T = Some x;
  lw_obj : forall b o, l_obj st b = Some o ->
    (is_ref (o_c o) = true \/ exists T, holds (o_c o) = Some T /\ (r <= rk T)%Z) ->
    exists k, l_obj st' b = Some (Obj (o_c o) k);
  lw_pl : pl st st'
}.
Lemma low_refl rk r st : low rk r st st.
Proof. constructor; auto; [intros b [c k] E _; eauto|]. intros b v k E _ _. eauto. Qed.

Lemma owned_set_coins st c s : owned (set_coins st c) s = owned st s.
Proof. reflexivity. Qed.

Lemma NoDup_app_iff_local {A} (l m : list A) : NoDup l -> NoDup m -> (forall x, In x l -> ~ In x m) -> NoDup (l ++ m).
Proof.
  intros Hl Hm H. induction Hl as [|a l Ha Hl IH]; cbn; auto. constructor.
  - intro X. apply in_app_or in X. destruct X as [X|X]; [auto|]. apply (H a); [now left|auto].
  - apply IH. intros x Hx. apply H. now right.
Qed.

(** Growing. *)
Lemma grow_spec rk r st s l cs : ok st -> l_sto st s = Some (SList l) ->
  (forall c, In c cs -> cvalid st c) ->
  exists st' l', grow s l cs st = (Ok tt, st') /\ ok st' /\ fr None st st' /\
    l_sto st' s = Some (SList l') /\ List.length l' = List.length l + List.length cs /\
    (forall T, T <> s -> l_sto st' T = l_sto st T) /\ l_ns st' = l_ns st /\
    (forall b o, l_obj st b = Some o -> ~ In b l -> l_obj st' b = Some o) /\
    ((forall c S, In c cs -> holds c = Some S -> (rk S < rk s)%Z) -> acyc rk st -> acyc rk st') /\
    ((rk s < r)%Z -> acyc rk st -> low rk r st st').
Proof.
  intros [W T] Es Hc.
  set (st1 := match l_coins st with [] => st | _ :: q => set_coins st q end).
  assert (W1 : wf None st1). { unfold st1. destruct (l_coins st); auto. now apply wf_set_coins. }
  assert (F1 : fr None st st1). { unfold st1. destruct (l_coins st); [apply fr_refl|apply fr_then_coins, fr_refl]. }
  assert (X1 : l_obj st1 = l_obj st /\ l_sto st1 = l_sto st /\ l_no st1 = l_no st /\ l_ns st1 = l_ns st /\ l_pins st1 = l_pins st).
  { unfold st1. destruct (l_coins st); cbn; auto. }
  destruct X1 as [Xo [Xs [Xn [Xm Xp]]]].
  set (b := match l_coins st with [] => false | b :: _ => b end).
  assert (Ec : coin st = (Ok b, st1)). { unfold coin, b, st1. destruct (l_coins st); reflexivity. }
  assert (Hl : forall e, In e l -> exists o, l_obj st e = Some o /\ is_ref (o_c o) = false).
  { intros e He. eapply (wf_el _ _ W); eauto. }
  assert (LB : forall e, In e l -> e < l_no st). { intros e He. destruct (Hl _ He) as [o [E _]]. eapply wf_ob; eauto. }
  pose proof (wf_nd _ _ W _ _ Es) as ND. cbn in ND.
  unfold grow, lbind at 1. rewrite Ec.
  destruct (contents_run l st1 W1) as [old [Eold [Hlen [Ho1 Ho2]]]]; [rewrite Xo; exact Hl|].
  rewrite Xo in Ho1, Ho2.
  (* both cases: the elements [keepers ++ fresh ones]; those killed *)
  set (ds := (if b then old else []) ++ cs).
  set (x := seq (l_no st) (List.length ds)).
  set (l' := (if b then [] else l) ++ x).
  set (dead := if b then l else []).
  set (st2 := adds st1 ds).
  set (st3 := set_stos st2 (upd (l_sto st2) s (Some (SList l')))).
  set (st4 := fold_left kill_obj dead st3).
  assert (Hds : forall c, In c ds -> cvalid st1 c).
  { assert (Y : forall c, cvalid st c -> cvalid st1 c). { intros c. unfold cvalid. rewrite Xs. auto. }
    unfold ds. intros c Hi. apply in_app_or in Hi. destruct Hi as [Hi|Hi]; [|auto].
    destruct b; [|inversion Hi]. destruct (Ho1 _ Hi) as [e [o [He [Eo <-]]]].
    destruct (Hl _ He) as [o' [E' R']]. rewrite Eo in E'. injection E' as <-.
    apply Y. eapply cvalid_of; eauto. discriminate. }
  destruct (adds_rest ds st1) as [N2 [S2 [M2 [P2 C2]]]]. fold st2 in N2, S2, M2, P2, C2.
  rewrite Xn in N2. rewrite Xs in S2. rewrite Xm in M2. rewrite Xp in P2.
  assert (W2 : wf None st2) by (apply adds_wf; auto).
  assert (F2 : fr None st st2) by (eapply adds_fr; eauto).
  assert (O2 : forall a, a < l_no st -> l_obj st2 a = l_obj st a).
  { intros a Ha. unfold st2. rewrite adds_old by lia. now rewrite Xo. }
  assert (Hx : forall e, In e x -> exists c, In c ds /\ l_obj st2 e = Some (Obj c None)).
  { intros e He. apply adds_new. rewrite Xn. exact He. }
  assert (Hxb : forall e, In e x -> l_no st <= e). { intros e He. apply in_seq in He. lia. }
  assert (Es2 : l_sto st2 s = Some (SList l)) by (rewrite S2; auto).
  assert (NX : forall e, In e x -> ~ elem_of st2 e).
  { intros e He [z [y [Ez Hi]]]. rewrite S2 in Ez. destruct (wf_el _ _ W _ _ _ Ez Hi) as [o [Eo _]].
    pose proof (wf_ob _ _ W _ _ Eo). apply Hxb in He. lia. }
  assert (W3 : wf None st3).
  { eapply wf_set_sto; eauto; [discriminate|..].
    - cbn. unfold l'. destruct b; cbn; [apply seq_NoDup|].
      apply NoDup_app_iff_local; auto using seq_NoDup.
      intros e H1 H2. apply LB in H1. apply Hxb in H2. lia.
    - cbn. intros e He. unfold l' in He. apply in_app_or in He. destruct He as [He|He].
      + destruct b; [inversion He|]. split; [|now left]. destruct (Hl _ He) as [o [Eo Ro]]. exists o.
        rewrite O2; auto.
      + split; [|right; auto]. destruct (Hx _ He) as [c [Hc' Ee]]. exists (Obj c None). split; auto.
        apply Hds in Hc'. destruct c; auto; contradiction. }
  assert (E3 : forall a, elem_of st3 a -> (In a l') \/ (exists z y, z <> s /\ l_sto st z = Some y /\ In a (elems y))).
  { intros a [z [y [Ez Hi]]]. cbn in Ez. unfold upd in Ez. destruct (Nat.eqb_spec z s).
    - injection Ez as <-. auto.
    - right. rewrite S2 in Ez. eauto. }
  assert (ND4 : forall a, In a dead -> ~ elem_of st3 a).
  { intros a Ha He. unfold dead in Ha. destruct b eqn:Eb; [|inversion Ha]. apply E3 in He.
    destruct He as [He|[z [y [Nz [Ez Hi]]]]].
    - unfold l' in He. cbn in He. apply Hxb in He. apply LB in Ha. lia.
    - apply Nz. eapply (wf_dj _ _ W z s); eauto. }
  assert (W4 : wf None st4) by (apply wf_kills; auto).
  assert (F3 : fr None st st3).
  { eapply fr_then_sto; eauto. cbn. intros e He. unfold l' in He. apply in_app_or in He.
    destruct He as [He|He]; [destruct b; [inversion He|now left]|right; auto]. }
  assert (F4 : fr None st st4).
  { apply fr_then_kills; auto. intros a Ha. left. exists s, (SList l). split; auto. cbn.
    unfold dead in Ha. destruct b; [auto|inversion Ha]. }
  kr dead st3. fold st4 in Kno, Ksto, Kns, Kpin.
  assert (O4 : forall a, a < l_no st -> ~ In a dead -> l_obj st4 a = l_obj st a).
  { intros a Ha Hn. unfold st4. rewrite kills_obj. apply mem_not in Hn. rewrite Hn. cbn. auto. }
  assert (O4x : forall e, In e x -> l_obj st4 e = l_obj st2 e).
  { intros e He. unfold st4. rewrite kills_obj. replace (mem e dead) with false; [reflexivity|].
    symmetry. apply mem_not. intro Hd. unfold dead in Hd. destruct b; [|inversion Hd]. apply LB in Hd. apply Hxb in He. lia. }
  assert (T4 : tight st4).
  { intros z y Ez. rewrite Ksto in Ez. cbn in Ez.
    assert (Oz : owned st z = true).
    { unfold upd in Ez. destruct (Nat.eqb_spec z s); [subst; eapply T; eauto|]. rewrite S2 in Ez. eapply T; eauto. }
    revert Oz. apply owned_ext.
    - intros a o Ea Hh. destruct (in_dec Nat.eq_dec a dead) as [Hd|Hd].
      + unfold dead in Hd. destruct b eqn:Eb; [|inversion Hd].
        assert (Hi : In (o_c o) ds). { unfold ds. apply in_or_app. left. eauto. }
        destruct (adds_own _ st1 _ Hi) as [a' [Ha' Ea']]. rewrite Xn in Ha'.
        exists a', (Obj (o_c o) None). rewrite (O4x a' Ha'). split; [|auto].
        rewrite Kno. cbn. rewrite N2. apply in_seq in Ha'. lia.
      + exists a, o. pose proof (wf_ob _ _ W _ _ Ea). rewrite O4 by auto. split; auto. rewrite Kno. cbn. lia.
    - intros w t p Ew. rewrite Ksto, Kns. cbn. rewrite M2. split; [eapply wf_sb; eauto|].
      rewrite upd_ne; [rewrite S2; auto|]. intros ->. congruence.
    - rewrite Kpin. cbn. rewrite P2. apply incl_refl. }
  exists st4, l'.
  assert (R : (if b
    then dl old <- contents l; dl l'0 <- new_objs old; dl x0 <- new_objs cs;
         (set_sto s (SList (l'0 ++ x0)) >>> kill_all l)
    else dl x0 <- new_objs cs; set_sto s (SList (l ++ x0))) st1 = (Ok tt, st4)).
  { unfold st4, st3, st2, l', x, dead, ds. destruct b eqn:Eb; unfold lbind.
    - rewrite Eold, new_objs_run. rewrite new_objs_run. rewrite <- adds_app.
      destruct (adds_rest old st1) as [Na _]. rewrite Na, Xn.
      rewrite app_length, seq_app.
      unfold set_sto. fold ds in Es2.
      assert (Es' : l_sto (adds st1 (old ++ cs)) s = Some (SList l)).
      { destruct (adds_rest (old ++ cs) st1) as [_ [-> _]]. now rewrite Xs. }
      rewrite Es'. unfold kill_all. cbn [app].
      match goal with |- context [gc ?n ?q] => set (q0 := q) end.
      assert (Q : q0 = st4).
      { unfold q0, st4, st3, st2, l', x, dead, ds. cbn [app]. rewrite app_length, seq_app. reflexivity. }
      rewrite Q. rewrite (gc_id _ _ T4). rewrite <- Q. reflexivity.
    - rewrite new_objs_run. rewrite Xn. unfold set_sto.
      destruct (adds_rest cs st1) as [_ [Q _]]. cbn [app fold_left]. rewrite Q, Xs, Es. reflexivity. }
  split; [exact R|]. split; [split; auto|]. split; auto.
  split; [rewrite Ksto; cbn; apply upd_eq|]. split.
  { unfold l', x, ds. rewrite app_length, seq_length, app_length. destruct b; cbn; lia. }
  split; [intros z Nz; rewrite Ksto; cbn; rewrite upd_ne by auto; now rewrite S2|].
  split; [rewrite Kns; exact M2|].
  split.
  { intros a o Ea Na. rewrite O4; [auto|exact (wf_ob _ _ W _ _ Ea)|]. unfold dead. destruct b; auto. }
  assert (ES4 : forall z y, l_sto st4 z = Some y -> (z = s /\ y = SList l') \/ (z <> s /\ l_sto st z = Some y)).
  { intros z y. rewrite Ksto. cbn. unfold upd. destruct (Nat.eqb_spec z s); intro E; [left; split; congruence|right].
    rewrite S2 in E. auto. }
  split.
  - intros Hrk [A1 A2]. split.
    + intros z y e o S Ez Hi Eo Eh. apply ES4 in Ez. destruct Ez as [[-> ->]|[Nz Ez]].
      * cbn in Hi. unfold l' in Hi. apply in_app_or in Hi. destruct Hi as [Hi|Hi].
        { destruct b eqn:Eb; [inversion Hi|]. rewrite O4 in Eo; [|auto|unfold dead; auto].
          eapply A1; [exact Es|exact Hi|exact Eo|exact Eh]. }
        { rewrite (O4x _ Hi) in Eo. destruct (Hx _ Hi) as [c [Hcd Ee]]. rewrite Ee in Eo. injection Eo as <-.
          cbn in Eh. unfold ds in Hcd. apply in_app_or in Hcd. destruct Hcd as [Hcd|Hcd]; [|eauto].
          destruct b; [|inversion Hcd]. destruct (Ho1 _ Hcd) as [e0 [o0 [He0 [Eo0 <-]]]].
          eapply A1; [exact Es|exact He0|exact Eo0|exact Eh]. }
      * destruct (wf_el _ _ W _ _ _ Ez Hi) as [o0 [Eo0 _]]. rewrite O4 in Eo.
        { exact (A1 _ _ _ _ _ Ez Hi Eo Eh). }
        { exact (wf_ob _ _ W _ _ Eo0). }
        { intro Hd. apply (ND4 _ Hd). exists z, y. split; auto. cbn. rewrite upd_ne by auto. now rewrite S2. }
    + intros z t S p z' y Ez Ez' Hi. apply ES4 in Ez. destruct Ez as [[_ Ez]|[_ Ez]]; [discriminate|].
      apply ES4 in Ez'. destruct Ez' as [[-> ->]|[_ Ez']]; [|exact (A2 _ _ _ _ _ _ Ez Ez' Hi)].
      cbn in Hi. unfold l' in Hi. apply in_app_or in Hi. destruct Hi as [Hi|Hi].
      * destruct b; [inversion Hi|]. exact (A2 _ _ _ _ _ _ Ez Es Hi).
      * pose proof (wf_px _ _ W _ _ _ _ Ez). apply Hxb in Hi. lia.
  - intros Hr [A1 A2]. constructor.
    + intros z y Ez Hz. rewrite Ksto. cbn. rewrite upd_ne; [now rewrite S2|]. intros ->.
      rewrite Es in Ez. injection Ez as <-. destruct Hz as [Hz|Hz]; [lia|exact Hz].
    + intros a o Ea Ha. exists (o_tok o). rewrite O4; [destruct o; auto|exact (wf_ob _ _ W _ _ Ea)|].
      unfold dead. destruct b; [|auto]. intro Hd. destruct Ha as [Ha|[z [Hz Hrz]]].
      * destruct (Hl _ Hd) as [o' [E' R']]. congruence.
      * pose proof (A1 _ _ _ _ _ Es Hd Ea Hz). lia.
    + intros a v k Ea Nv Na. exists k. rewrite O4; [auto|exact (wf_ob _ _ W _ _ Ea)|].
      unfold dead. destruct b; [|auto]. intro Hd. apply Na. exists s, (SList l). auto.
Qed.
