(** Proofs about Life.v: each operation of a program. *)
From Coq Require Import Lia ZArith.
From Verif Require Import Base Float Value Path Life LifeProofs LifeSafe LifeRefs LifeGrow LifeSlots LifeOps.
Open Scope nat_scope.

Lemma client_live st a : client st a -> exists o, l_obj st a = Some o.
Proof. now intros [H _]. Qed.
Lemma get_run st a o : l_obj st a = Some o -> get_obj a st = (Ok o, st).
Proof. unfold get_obj. now intros ->. Qed.
Lemma getsto_run st a o : l_sto st a = Some o -> get_sto a st = (Ok o, st).
Proof. unfold get_sto. now intros ->. Qed.

(** ** Assignment *)

Lemma ok_set_pins st s : ok st -> (exists y, l_sto st s = Some y) -> ok (set_pins st (s :: l_pins st)).
Proof.
  intros [W T] Hy. split.
  - apply wf_set_pins; auto. intros s' [<-|Hs]; auto. exact (wf_pn _ _ W _ Hs).
  - intros z x Ez. specialize (T _ _ Ez). revert T. apply owned_ext.
    + intros a o Ea Ha. exists a, o. split; auto. exact (wf_ob _ _ W _ _ Ea).
    + intros z' t p Ez'. split; auto. exact (wf_sb _ _ W _ _ Ez').
    + intros x' Hx. now right.
Qed.
Lemma unpin st s st1 : ok st1 -> fr None (set_pins st (s :: l_pins st)) st1 ->
  safe st (gc (l_ns (set_pins st1 (l_pins st))) (set_pins st1 (l_pins st))).
Proof.
  intros [W T] F. set (st2 := set_pins st1 (l_pins st)).
  assert (W2 : wf None st2).
  { apply wf_set_pins; auto. intros s' Hs. apply (wf_pn _ _ W). rewrite (fr_pins _ _ _ F). now right. }
  split; [split; [now apply gc_wf|eapply gc_tight; eauto]|].
  eapply fr_trans; [|apply fr_gc]. destruct F. constructor; auto.
Qed.

Lemma share_spec rk st s c dst od : ok st -> acyc rk st -> holds c = Some s -> cvalid st c ->
  l_obj st dst = Some od ->
  wp (pin s (dl d <- reach RCreate dst; destroy d >>> set_content d c))
     (fun _ st' => safe st st' /\ (is_ref (o_c od) = false -> ~ elem_of st dst -> acyclic st'))
     (safe st) st.
Proof.
  intros H A Hh Hv Ed. destruct (cvalid_nonref _ _ _ Hv Hh) as [y [Ey Ky]].
  set (stp := set_pins st (s :: l_pins st)).
  assert (Hp : ok stp) by (apply ok_set_pins; eauto).
  assert (Ap : acyc rk stp) by exact A.
  assert (IN : wp (dl d <- reach RCreate dst; destroy d >>> set_content d c)
     (fun _ st3 => safe stp st3 /\ (is_ref (o_c od) = false -> ~ elem_of st dst -> acyclic st3)) (safe stp) stp).
  { apply wp_bind. eapply wp_mono; [eapply (reach_spec rk stp dst od RCreate Hp Ap Ed); left; discriminate| |auto].
    intros d st1 [[O1 [F1 [P1 [rk1 A1]]]] [[o1 [E1 R1]] [Hsame [Hst _]]]]. cbv beta.
    destruct (destroy_state rk1 st1 d o1 O1 A1 E1) as [st2 [E2 [W2 [T2 [A2 [F2 [S2 Ed2]]]]]]].
    eapply wp_step; [exact E2|]. eapply wp_ok; [eapply fill_run; exact Ed2|].
    assert (F12 : fr None stp st2) by (eapply fr_trans; eauto).
    assert (Hs2 : exists y', l_sto st2 s = Some y').
    { apply (wf_pn _ _ W2). rewrite (fr_pins _ _ _ F12). now left. }
    destruct Hs2 as [y' Ey'].
    assert (K2 : kind y' = kind y). { eapply (fr_kind _ _ _ F12); eauto. exact (wf_sb _ _ (proj1 Hp) _ _ Ey). }
    assert (V2 : cvalid st2 c).
    { destruct c; cbn in Hh; try discriminate; injection Hh as ->; cbn in Hv; try contradiction; destruct Hv as [? Hv];
      rewrite Ey in Hv; injection Hv as ->; cbn in K2; destruct y'; try discriminate; cbn; eauto. }
    assert (Rc : is_ref c = false) by (destruct c; cbn in Hv; try contradiction; reflexivity).
    split; [split; [split|]|].
    - eapply (wf_set_content (Some d) None st2 d _ c W2 Ed2); [auto|cbn; congruence|].
      destruct c; auto; contradiction.
    - eapply tight_fill; eauto.
    - eapply fr_then_obj; [exact F12|exact Ed2|]. right. cbn. congruence.
    - intros Rd Nd. exists rk1. apply acyc_fill; auto. intros U x S EU HU _. exfalso.
      assert (Q1 : d = dst) by auto. assert (Q2 : st1 = stp). { apply Hst. intros z Ez. rewrite Ez in Rd. discriminate. }
      rewrite Q1, Q2 in S2. rewrite Q1 in HU.
      assert (X : elem_of (hole stp dst o1) dst). { eapply shrinks_elem; [exact S2|]. exists U, x. auto. }
      rewrite elem_hole in X. apply Nd. exact X. }
  unfold pin, wp. fold stp. unfold wp in IN.
  destruct ((dl d <- reach RCreate dst; destroy d >>> set_content d c) stp) as [[u|x| | |] st1]; auto.
  - destruct IN as [[O1 F1] Ha]. split; [eapply unpin; eauto|]. intros Rd Nd.
    destruct (Ha Rd Nd) as [rk1 A1]. exists rk1. eapply acyc_shrinks; [apply gc_shrinks|exact A1].
  - destruct IN as [O1 F1]. eapply unpin; eauto.
Qed.

Lemma assign_from_spec rk st t ot dst od : ok st -> acyc rk st -> l_obj st t = Some ot -> is_ref (o_c ot) = false ->
  l_obj st dst = Some od -> ((forall z, o_c od <> KProxy z) \/ ~ elem_of st t) ->
  wp (assign_from t dst)
     (fun _ st' => safe st st' /\ (is_ref (o_c od) = false -> ~ elem_of st dst -> acyclic st')) (safe st) st.
Proof.
  intros H A Et Rt Ed Hd. unfold assign_from. eapply wp_step; [apply get_run; eauto|].
  assert (Hv : cvalid st (o_c ot)) by (eapply cvalid_of; eauto; [apply H|discriminate]).
  assert (PI : forall v d st1, fine st st1 -> ordinary st1 d ->
    wp (plain_init d v) (fun _ st' => safe st st' /\ (is_ref (o_c od) = false -> ~ elem_of st dst -> acyclic st')) (safe st) st1).
  { intros v d st1 [O1 [F1 [_ [rk1 A1]]]] [o1 [E1 R1]].
    destruct (plain_init_spec rk1 st1 d o1 v O1 A1 E1 R1) as [st2 [E2 [O2 [A2 [F2 _]]]]].
    eapply wp_ok; [exact E2|]. split; [split; auto; eapply fr_trans; eauto|]. intros _ _. exists rk1. auto. }
  assert (RS := reach_spec rk st dst od RCreate H A Ed ltac:(left; discriminate)).
  destruct (o_c ot) as [b|v|s|s|s|s|s] eqn:Ec; try contradiction; try discriminate.
  - assert (NZ : v <> VNull -> wp (dl d <- reach RCreate dst; dl o' <- get_obj t;
        match o_c o' with KPlain v => plain_init d v | _ => lfail UB end)
       (fun _ st' => safe st st' /\ (is_ref (o_c od) = false -> ~ elem_of st dst -> acyclic st')) (safe st) st).
    { intro Nv. apply wp_bind. eapply wp_mono; [exact RS| |auto]. intros d st1 [HF [HO [_ [Hst _]]]]. cbv beta.
      assert (E1 : exists k, l_obj st1 t = Some (Obj (KPlain v) k)).
      { destruct Hd as [Hd|Hd].
        - rewrite (Hst Hd). exists (o_tok ot). rewrite Et. destruct ot; cbn in *; congruence.
        - destruct HF as [_ [_ [P _]]]. eapply (P t (KPlain v) (o_tok ot)); auto.
          + rewrite Et. destruct ot; cbn in *; congruence.
          + cbn. destruct v; auto. }
      destruct E1 as [k E1]. eapply wp_step; [apply get_run; eauto|]. cbn [o_c]. auto. }
    destruct v; try (apply NZ; discriminate).
    apply wp_bind. eapply wp_mono; [exact RS| |auto]. intros d st1 [HF [HO _]]. cbv beta. auto.
  - eapply share_spec; eauto.
  - eapply share_spec; eauto.
  - eapply share_spec; eauto.
Qed.

(** Ref::Assign and so on. *)
Lemma assign_spec rk st src os dst od : ok st -> acyc rk st -> l_obj st src = Some os -> l_obj st dst = Some od ->
  ~ elem_of st src -> ~ elem_of st dst ->
  ((forall z, o_c od <> KProxy z) \/ is_ref (o_c os) = false) ->
  wp (assign src dst) (fun _ st' => safe st st' /\ (is_ref (o_c od) = false -> acyclic st')) (safe st) st.
Proof.
  intros H A Es Ed Ns Nd Hd. unfold assign. apply wp_bind.
  eapply wp_mono; [eapply (reach_spec rk st src os RThrow H A Es); left; discriminate| |auto].
  intros t st1 [HF [[ot [Et Rt]] [Hsame [Hst [o' [Es' Hp']]]]]]. cbv beta.
  pose proof HF as [O1 [F1 [P1 [rk1 A1]]]].
  destruct (fr_root _ _ _ F1 dst od (wf_ob _ _ (proj1 H) _ _ Ed) Ed Nd) as [od1 [Ed1 [Nd1 Rd1]]].
  assert (Hd1 : (forall z, o_c od1 <> KProxy z) \/ ~ elem_of st1 t).
  { destruct (is_ref (o_c os)) eqn:Rs.
    - left. destruct Hd as [Hd|Hd]; [|discriminate].
      destruct (Nat.eq_dec src dst) as [->|N].
      + rewrite Ed1 in Es'. injection Es' as <-. exact Hp'.
      + intros z Ez. assert (R1 : is_ref (o_c od1) = true) by now rewrite Ez.
        rewrite Rd1 in R1 by discriminate. destruct od as [c k]. cbn in *.
        destruct c as [b|v|x|x|x|u|x]; try discriminate.
        * pose proof (wf_ct _ _ (proj1 H) _ _ Ed) as X. discriminate X.
        * destruct (P1 dst (KRef u) k Ed Logic.I Nd) as [k' Ek']. rewrite Ed1 in Ek'. injection Ek' as ->. discriminate.
        * eapply Hd; reflexivity.
    - right. rewrite (Hsame eq_refl). rewrite Hst; auto. intros z Ez. rewrite Ez in Rs. discriminate. }
  eapply wp_mono; [eapply (assign_from_spec rk1 st1 t ot dst od1); auto| |].
  - intros _ st2 [S2 Ha]. split; [eapply safe_trans; [apply fine_safe; exact HF|exact S2]|].
    intro Rd. apply Ha; auto. rewrite Rd1; [auto|discriminate].
  - intros st2 S2. eapply safe_trans; [apply fine_safe; exact HF|exact S2].
Qed.

(** ** Elements *)

Lemma above rk (o : obj) : exists r, forall s : nat, holds (o_c o) = Some s -> (rk s < r)%Z.
Proof.
  destruct (holds (o_c o)) as [s|]; [|exists 0%Z; discriminate]. exists (rk s + 1)%Z. intros s' E. injection E as <-. lia.
Qed.

Lemma append_spec rk st a oa v ov : ok st -> acyc rk st -> l_obj st a = Some oa ->
  l_obj st v = Some ov -> is_ref (o_c ov) = false -> ~ elem_of st v ->
  wp (append a v) (fun _ => safe st) (safe st) st.
Proof.
  intros H A Ea Ev Rv Nv. unfold append. apply wp_bind.
  eapply wp_mono; [eapply (reach_spec rk st a oa RCreate H A Ea); left; discriminate| |auto].
  intros t st1 [HF [[ot [Et Rt]] _]]. cbv beta. pose proof HF as [O1 [F1 [_ [rk1 A1]]]].
  eapply wp_step; [apply get_run; eauto|].
  assert (GROW : forall st2 rk2 s o2, safe st st2 -> acyc rk2 st2 -> l_obj st2 t = Some o2 -> o_c o2 = KList s ->
    wp (dl sl <- list_of t; dl ov <- get_obj v; if is_ref (o_c ov) then lfail UB else grow (fst sl) (snd sl) [o_c ov])
      (fun _ => safe st) (safe st) st2).
  { intros st2 rk2 s o2 [O2 F2] A2 E2 C2. pose proof (wf_ct _ _ (proj1 O2) _ _ E2) as C. rewrite C2 in C. destruct C as [l El].
    eapply wp_step; [eapply list_of_run; eauto|]. cbn [fst snd].
    destruct (fr_root _ _ _ F2 v ov (wf_ob _ _ (proj1 H) _ _ Ev) Ev Nv) as [ov2 [Ev2 [_ Rv2]]].
    eapply wp_step; [apply get_run; eauto|]. rewrite Rv2 by discriminate. rewrite Rv.
    assert (Rv2' : is_ref (o_c ov2) = false) by (rewrite Rv2; [auto|discriminate]).
    destruct (grow_spec rk2 0%Z st2 s l [o_c ov2] O2 El) as [st3 [l' [E3 [O3 [F3 _]]]]].
    { intros c [<-|[]]. eapply cvalid_of; eauto; [apply O2|discriminate]. }
    eapply wp_ok; [exact E3|]. split; auto. eapply fr_trans; eauto. }
  destruct (o_c ot) as [b|w|s|s|s|s|s] eqn:Ec; try discriminate;
    try (unfold wp, lbind, lfail; apply fine_safe; exact HF).
  - destruct w; try (unfold wp, lbind, lfail; apply fine_safe; exact HF).
    destruct (init_step KList (SList []) rk1 0%Z st1 t ot empty_list O1 A1 Et Ec) as [st2 [rk2 [E2 [S2 [Et2 [Es2 _]]]]]].
    eapply wp_step; [exact E2|]. destruct S2 as [O2 [F2 [A2 _]]]. eapply (GROW st2 rk2); [|auto|exact Et2|reflexivity].
    split; auto. eapply fr_trans; eauto.
  - eapply wp_step; [reflexivity|]. eapply (GROW st1 rk1); eauto. apply fine_safe; auto.
Qed.

Lemma set_elem_spec rk st a oa e v ov : ok st -> acyc rk st -> l_obj st a = Some oa ->
  l_obj st v = Some ov -> is_ref (o_c ov) = false -> ~ elem_of st v ->
  wp (set_elem a e v) (fun _ => safe st) (safe st) st.
Proof.
  intros H A Ea Ev Rv Nv. unfold set_elem. apply wp_bind.
  eapply wp_mono; [eapply (reach_spec rk st a oa RCreate H A Ea); left; discriminate| |auto].
  intros t st1 [HF [[ot [Et Rt]] _]]. cbv beta. pose proof HF as [O1 [F1 [_ [rk1 A1]]]].
  apply wp_bind. destruct (above rk1 ot) as [r Hr].
  eapply wp_mono; [eapply (slot_spec rk1 r st1 t ot e); auto| |].
  - intros u st2 [rk2 [[O2 [F2 [A2 _]]] [o2 [s [y [E2 [R2 [Hh [_ [Es Hi]]]]]]]]]].
    destruct (wf_el _ _ (proj1 O2) _ _ _ Es Hi) as [ou [Eu Ru]].
    assert (F : fr None st st2) by (eapply fr_trans; eauto).
    destruct (fr_root _ _ _ F v ov (wf_ob _ _ (proj1 H) _ _ Ev) Ev Nv) as [ov2 [Ev2 [Nv2 Rv2]]].
    eapply wp_mono; [eapply (assign_from_spec rk2 st2 v ov2 u ou); auto; rewrite Rv2; [auto|discriminate]| |].
    + intros _ st3 [S3 _]. eapply safe_trans; [|exact S3]. split; auto.
    + intros st3 S3. eapply safe_trans; [|exact S3]. split; auto.
  - intros st2 S2. eapply safe_trans; [apply fine_safe; exact HF|exact S2].
Qed.

Lemma NoDup_snd_eq (m : list (bytes * nat)) k k' u : NoDup (map snd m) -> In (k, u) m -> In (k', u) m -> k = k'.
Proof.
  induction m as [|[x y] m IH]; cbn; [intros _ []|]. intros ND H1 H2. inversion ND as [|? ? Hn Hm]; subst.
  destruct H1 as [H1|H1], H2 as [H2|H2].
  - congruence.
  - injection H1 as -> ->. exfalso. apply Hn. apply in_map_iff. exists (k', u). auto.
  - injection H2 as -> ->. exfalso. apply Hn. apply in_map_iff. exists (k, u). auto.
  - auto.
Qed.
Lemma rem_key_incl m k : incl (map snd (rem_key m k)) (map snd m).
Proof. intros x Hx. apply in_map_iff in Hx. destruct Hx as [y [<- Hy]]. apply filter_In in Hy. apply in_map. apply Hy. Qed.
Lemma rem_key_NoDup m k : NoDup (map snd m) -> NoDup (map snd (rem_key m k)).
Proof.
  induction m as [|[x y] m IH]; cbn; intro ND; [constructor|]. inversion ND as [|? ? Hn Hm]; subst.
  destruct (negb (beqb x k)); cbn; auto. constructor; auto. intro X. apply Hn. eapply rem_key_incl; eauto.
Qed.
Lemma rem_key_gone m k u : NoDup (map snd m) -> find_key m k = Some u -> ~ In u (map snd (rem_key m k)).
Proof.
  intros ND F X. unfold find_key in F. destruct (find _ m) as [[k1 u1]|] eqn:E; [|discriminate]. injection F as ->.
  apply find_some in E. destruct E as [Hi Hb]. cbn in Hb. apply in_map_iff in X. destruct X as [[k2 u2] [Eu Hx]].
  cbn in Eu. subst. apply filter_In in Hx. destruct Hx as [Hx Hn]. cbn in Hn.
  rewrite (NoDup_snd_eq m k2 k1 u ND Hx Hi) in Hn. rewrite Hb in Hn. discriminate.
Qed.

Lemma set_elem_of_last {A} (l : list A) d : NoDup l -> l <> [] ->
  incl (removelast l) l /\ NoDup (removelast l) /\ In (last l d) l /\ ~ In (last l d) (removelast l).
Proof.
  intros ND N. pose proof (app_removelast_last d N) as E. rewrite E in ND. 
  split; [intros x Hx; rewrite E; apply in_or_app; auto|].
  split; [|split; [rewrite E at 2; apply in_or_app; right; now left|]].
  - revert ND. generalize (removelast l). intros a. induction a as [|x a IH]; cbn; intro ND; constructor.
    + inversion ND; subst. intro X. apply H1. apply in_or_app; auto.
    + inversion ND; subst. auto.
  - revert ND. generalize (removelast l) (last l d). intros a y. induction a as [|x a IH]; cbn; intro ND; [auto|].
    inversion ND; subst. intros [->|X]; [|apply IH; auto]. apply H1. apply in_or_app. right. now left.
Qed.

Lemma erase_spec rk st a oa e : ok st -> acyc rk st -> l_obj st a = Some oa ->
  wp (erase_elem a e) (fun _ => safe st) (safe st) st.
Proof.
  intros H A Ea. unfold erase_elem. apply wp_bind.
  eapply wp_mono; [eapply (reach_spec rk st a oa RThrow H A Ea); left; discriminate| |auto].
  intros t st1 [HF [[ot [Et Rt]] _]]. cbv beta. pose proof HF as [O1 [F1 [_ [rk1 A1]]]].
  pose proof (fine_safe _ _ HF) as SF.
  eapply wp_step; [apply get_run; eauto|].
  pose proof (wf_ct _ _ (proj1 O1) _ _ Et) as C.
  destruct (o_c ot) as [b|w|s|s|s|s|s] eqn:Ec; try discriminate; try (destruct e; exact SF).
  - destruct w, e; try exact SF.
  - destruct e as [k|i]; [exact SF|]. destruct C as [l El].
    eapply wp_step; [eapply list_of_run; eauto|]. cbn [snd]. cbv zeta.
    pose proof (wf_nd _ _ (proj1 O1) _ _ El) as ND. cbn in ND.
    destruct (N.ltb ((i + 1) mod 2 ^ 32) (N.of_nat (List.length l))).
    + destruct (nth_elem l i) as [u|] eqn:En; [|exact SF].
      destruct (wf_el _ _ (proj1 O1) _ _ u El (nth_elem_In _ _ _ En)) as [ou [Eu Ru]].
      destruct (plain_init_spec rk1 st1 u ou VNull O1 A1 Eu Ru) as [st2 [E2 [O2 [A2 [F2 _]]]]].
      eapply wp_ok; [exact E2|]. split; auto. eapply fr_trans; eauto.
    + destruct (N.ltb_spec i (N.of_nat (List.length l))); [|exact SF].
      assert (Nl : l <> []) by (intros ->; cbn in *; lia).
      destruct (set_elem_of_last l O ND Nl) as [L1 [L2 [L3 L4]]].
      destruct (remove_spec rk1 0%Z st1 s (SList l) (SList (removelast l)) [last l O] O1 A1 El)
        as [st2 [E2 [O2 [F2 _]]]]; cbn; auto.
      { intros d [<-|[]]. auto. }
      eapply wp_ok; [exact E2|]. split; auto. eapply fr_trans; eauto.
  - destruct e as [k|i]; [|exact SF]. destruct C as [m Em].
    eapply wp_step; [eapply map_of_run; eauto|]. cbn [snd].
    pose proof (wf_nd _ _ (proj1 O1) _ _ Em) as ND. cbn in ND.
    destruct (find_key m k) as [u|] eqn:Ef; [|exact SF].
    destruct (remove_spec rk1 0%Z st1 s (SMap m) (SMap (rem_key m k)) [u] O1 A1 Em)
      as [st2 [E2 [O2 [F2 _]]]]; cbn; auto using rem_key_incl, rem_key_NoDup.
    { intros d [<-|[]]. split; [eapply find_key_In; eauto|apply rem_key_gone; auto]. }
    eapply wp_ok; [exact E2|]. split; auto. eapply fr_trans; eauto.
Qed.

Lemma clear_spec rk st a oa : ok st -> acyc rk st -> l_obj st a = Some oa ->
  wp (clear a) (fun _ => safe st) (safe st) st.
Proof.
  intros H A Ea. unfold clear. apply wp_bind.
  eapply wp_mono; [eapply (reach_spec rk st a oa RThrow H A Ea); left; discriminate| |auto].
  intros t st1 [HF [[ot [Et Rt]] _]]. cbv beta. pose proof HF as [O1 [F1 [_ [rk1 A1]]]].
  pose proof (fine_safe _ _ HF) as SF.
  eapply wp_step; [apply get_run; eauto|].
  pose proof (wf_ct _ _ (proj1 O1) _ _ Et) as C.
  assert (PI : wp (plain_init t VNull) (fun _ => safe st) (safe st) st1).
  { destruct (plain_init_spec rk1 st1 t ot VNull O1 A1 Et Rt) as [st2 [E2 [O2 [A2 [F2 _]]]]].
    eapply wp_ok; [exact E2|]. split; auto. eapply fr_trans; eauto. }
  destruct (o_c ot) as [b|w|s|s|s|s|s] eqn:Ec; try discriminate.
  - destruct w; try exact PI. exact SF.
  - destruct C as [b Eb]. eapply wp_ok; [unfold set_sto; rewrite Eb; reflexivity|].
    destruct O1 as [W1 T1]. split; [split|].
    + eapply (wf_set_sto None st1 s (SStr b) (SStr [])); cbn; auto; [apply NoDup_nil|intros e []].
    + intros z x Ez. assert (Ez' : exists x', l_sto st1 z = Some x').
      { cbn in Ez. unfold upd in Ez. destruct (Nat.eqb_spec z s); [subst; eauto|eauto]. }
      destruct Ez' as [x' Ez']. pose proof (T1 _ _ Ez') as Ow. revert Ow. apply owned_ext; cbn.
      * intros c oc Ec' Hc. exists c, oc. split; auto. exact (wf_ob _ _ W1 _ _ Ec').
      * intros w t' p Ew. split; [exact (wf_sb _ _ W1 _ _ Ew)|]. rewrite upd_ne; auto. congruence.
      * apply incl_refl.
    + eapply fr_then_sto; eauto; cbn; intros e [].
  - destruct C as [l El]. eapply wp_step; [eapply list_of_run; eauto|]. cbn [snd].
    destruct (remove_spec rk1 0%Z st1 s (SList l) (SList []) l O1 A1 El) as [st2 [E2 [O2 [F2 _]]]]; cbn; auto; try apply NoDup_nil; try (intros x []).
    eapply wp_ok; [exact E2|]. split; auto. eapply fr_trans; eauto.
  - destruct C as [m Em]. eapply wp_step; [eapply map_of_run; eauto|]. cbn [snd].
    destruct (remove_spec rk1 0%Z st1 s (SMap m) (SMap []) (map snd m) O1 A1 Em) as [st2 [E2 [O2 [F2 _]]]]; cbn; auto; try apply NoDup_nil; try (intros x []).
    eapply wp_ok; [exact E2|]. split; auto. eapply fr_trans; eauto.
Qed.

(** ** References to elements *)

Lemma at_obj_spec rk st t ot e r : ok st -> acyc rk st -> l_obj st t = Some ot -> is_ref (o_c ot) = false ->
  l_obj st r = Some (Obj (KPlain VNull) None) -> ~ elem_of st r -> t <> r ->
  wp (dl x <- get_obj t;
      match o_c x, e with
      | KPlain VNull, _ => proxy_init r t (lret [e])
      | KList _, PIdx _ | KMap _, PKey _ =>
          dl u <- get_elem t e false;
          match u with Some u => ref_init r u | None => proxy_init r t (lret [e]) end
      | (KNone _ | KRef _ | KProxy _), _ => lfail UB
      | _, _ => lfail (Throw UnexpectedTypeError)
      end)
     (fun _ st' => ok st' /\ fr (Some r) st st') (fun st' => ok st' /\ fr (Some r) st st') st.
Proof.
  intros H A Et Rt Er Nr Ntr. eapply wp_step; [apply get_run; eauto|].
  pose proof (not_none _ _ _ _ (proj1 H) Et ltac:(discriminate)) as NN.
  assert (TH : ok st /\ fr (Some r) st st) by (split; [auto|apply fr_refl]).
  assert (PX : wp (proxy_init r t (lret [e])) (fun _ st' => ok st' /\ fr (Some r) st st')
    (fun st' => ok st' /\ fr (Some r) st st') st).
  { destruct (proxy_init_simple rk st r _ t ot (lret [e]) [e] H A Er eq_refl (or_intror eq_refl) Nr Ntr Et Rt)
      as [st' [E [O [_ [F _]]]]]; [reflexivity|]. eapply wp_ok; [exact E|]. auto. }
  assert (GE : wp (dl u <- get_elem t e false;
          match u with Some u => ref_init r u | None => proxy_init r t (lret [e]) end)
     (fun _ st' => ok st' /\ fr (Some r) st st') (fun st' => ok st' /\ fr (Some r) st st') st).
  { destruct (get_elem_spec st t ot e false (proj1 H) Et Rt) as [[x Ex]|[[_ Ex]|[u [s [y [Ex [Hh [Es Hi]]]]]]]].
    - unfold wp, lbind. rewrite Ex. exact TH.
    - eapply wp_step; [exact Ex|]. exact PX.
    - eapply wp_step; [exact Ex|]. destruct (wf_el _ _ (proj1 H) _ _ _ Es Hi) as [ou [Eu Ru]].
      assert (Nu : u <> r). { intros ->. apply Nr. exists s, y. auto. }
      destruct (ref_init_simple rk st r _ u ou H A Er eq_refl (or_intror eq_refl) Nr Nu Eu Ru)
        as [st' [k [E [O [_ [F _]]]]]]. eapply wp_ok; [exact E|]. auto. }
  destruct (o_c ot) as [b|w|s|s|s|s|s] eqn:Ec; try discriminate.
  - exfalso; eapply NN; eauto.
  - destruct w; try exact PX; destruct e; exact TH.
  - destruct e; exact TH.
  - destruct e; [exact TH|exact GE].
  - destruct e; [exact GE|exact TH].
Qed.

Lemma make_at_spec rk st a oa e r : ok st -> acyc rk st -> l_obj st a = Some oa -> a <> r -> ~ elem_of st a ->
  l_obj st r = Some (Obj (KPlain VNull) None) -> ~ elem_of st r ->
  wp (make_at a e r) (fun _ st' => ok st' /\ fr (Some r) st st') (fun st' => ok st' /\ fr (Some r) st st') st.
Proof.
  intros H A Ea Nar Na Er Nr. unfold make_at. eapply wp_step; [apply get_run; eauto|]. cbv zeta.
  match goal with |- context [lbind (reach RCheck a) ?f] => set (G := f) end.
  assert (WK : forall st', safe st st' -> ok st' /\ fr (Some r) st st').
  { intros st' [O F]. split; auto. now apply fr_weak. }
  (* when [a] is not a proxy *)
  assert (NP : forall st1 rk1 o1, safe st st1 -> acyc rk1 st1 -> l_obj st1 a = Some o1 -> (forall z, o_c o1 <> KProxy z) ->
     l_obj st1 r = Some (Obj (KPlain VNull) None) ->
     wp (lbind (reach RCheck a) G) (fun _ st' => ok st' /\ fr (Some r) st st') (fun st' => ok st' /\ fr (Some r) st st') st1).
  { intros st1 rk1 o1 [O1 F1] A1 E1 Hp Er1.
    destruct (fr_root _ _ _ F1 r _ (wf_ob _ _ (proj1 H) _ _ Er) Er Nr) as [or [Er1' [Nr1 _]]].
    assert (Ntr : forall t, linked st1 o1 t -> t <> r).
    { intros t [_ [k [_ [_ Hl]]]] ->. destruct (Hl _ Er1) as [_ K]. discriminate. }
    assert (TR : (is_ref (o_c o1) = false \/ exists t, o_c o1 = KRef t)).
    { pose proof (wf_ct _ _ (proj1 O1) _ _ E1) as C. destruct (o_c o1) eqn:Ec; auto;
        [discriminate C|right; eauto|exfalso; eapply Hp; eauto]. }
    assert (AT : forall t, ordinary st1 t -> t <> r ->
       wp (G t) (fun _ st' => ok st' /\ fr (Some r) st st') (fun st' => ok st' /\ fr (Some r) st st') st1).
    { intros t [ot [Et Rt]] Nt. unfold G.
      eapply wp_mono; [eapply (at_obj_spec rk1 st1 t ot e r); auto| |].
      - intros _ st2 [O2 F2]. split; auto. eapply fr_trans; [apply fr_weak; exact F1|exact F2].
      - intros st2 [O2 F2]. split; auto. eapply fr_trans; [apply fr_weak; exact F1|exact F2]. }
    destruct TR as [R1|[t C1]].
    - apply wp_bind. eapply wp_mono; [eapply (reach_spec rk1 st1 a o1 RCheck O1 A1 E1); right; exact Hp| |].
      + intros t st2 [_ [HO [Hsame [Hst _]]]]. cbv beta. rewrite (Hsame R1), (Hst Hp) in *. apply AT; auto.
      + intros st2 S2. apply WK. eapply safe_trans; [split; eauto|exact S2].
    - pose proof (wf_ct _ _ (proj1 O1) _ _ E1) as C. rewrite C1 in C.
      assert (RE : reach RCheck a st1 = target o1 t st1). { unfold reach, lbind, get_obj. rewrite E1, C1. reflexivity. }
      destruct (target_spec _ _ _ C (proj1 O1)) as [[E _]|[E Ht]].
      + unfold wp, lbind. rewrite RE, E. apply WK. split; auto.
      + eapply wp_step; [rewrite RE; exact E|]. apply AT; auto. }
  destruct (o_c oa) as [b|w|s|s|s|t|z] eqn:Ec;
    try (eapply (NP st rk oa); [apply safe_refl; auto|auto|auto|rewrite Ec; discriminate|auto]).
  apply wp_bind. eapply wp_mono; [eapply (proxy_resolve_spec rk st a oa z RCheck H A Ea Ec)| |exact WK].
  intros b st1 Hb. cbv beta. destruct b.
  - destruct Hb as [HF [[u [ou [k [Ea1 _]]]] HR]]. pose proof HF as [_ [_ [_ [rk1 A1]]]].
    eapply (NP st1 rk1); [apply fine_safe; auto|auto|exact Ea1|discriminate|].
    eapply (HR ltac:(discriminate) r); eauto.
  - destruct Hb as [_ [-> HO]]. pose proof (wf_ct _ _ (proj1 H) _ _ Ea) as C. rewrite Ec in C.
    destruct C as [t [keep [p [Ez Hl]]]]. eapply wp_step; [apply getsto_run; eauto|]. cbv beta iota.
    destruct (HO _ _ _ Ez) as [ot [Et Rt]].
    assert (Ntr : t <> r). { intros ->. destruct Hl as [_ [k [_ [_ Hl]]]]. destruct (Hl _ Er) as [_ K]. discriminate. }
    destruct (proxy_init_simple rk st r _ t ot (lret (p ++ [e])) (p ++ [e]) H A Er eq_refl (or_intror eq_refl) Nr Ntr Et Rt)
      as [st' [E [O [_ [F _]]]]]; [reflexivity|]. eapply wp_ok; [exact E|]. auto.
Qed.

(** ** Reading *)
Lemma read_spec st t : ok st -> ordinary st t -> exists v, read_obj t st = (Ok v, st).
Proof.
  intros [W T] [o [E R]]. pose proof (wf_ct _ _ W _ _ E) as C. unfold read_obj, lbind, get_obj, get_sto. rewrite E.
  destruct (o_c o); try discriminate; cbn in C; try discriminate.
  - eexists; reflexivity.
  - destruct C as [b ->]. eexists; reflexivity.
  - destruct C as [b ->]. eexists; reflexivity.
  - destruct C as [b ->]. eexists; reflexivity.
Qed.
Lemma exists_spec st a o : ok st -> l_obj st a = Some o ->
  (exists b, exists_ref a st = (Ok b, st)) \/ (exists x, exists_ref a st = (Throw x, st)).
Proof.
  intros [W T] E. pose proof (wf_ct _ _ W _ _ E) as C. destruct (exists_ref a st) as [r s] eqn:X.
  unfold exists_ref, lbind at 1, get_obj in X. rewrite E in X.
  destruct (o_c o) as [b|w|y|y|y|t|z] eqn:Ec; try (injection X as <- <-; left; eexists; reflexivity); [discriminate C|].
  destruct C as [t [keep [p [Ez Hl]]]]. pose proof Hl as [_ [k [Ek [H1 H2]]]]. rewrite Ek in X.
  destruct (l_tok st k) eqn:Et; [|injection X as <- <-; left; eexists; reflexivity].
  destruct (H1 eq_refl) as [ot Eot]. destruct (H2 _ Eot) as [Rt _].
  unfold lbind, get_sto, lret in X. rewrite Ez in X.
  destruct (get_path_const_spec p false st t ot W Eot Rt) as [[x Q]|[[_ Q]|[u [Q _]]]]; rewrite Q in X; injection X as <- <-.
  - right. eexists; reflexivity.
  - left. eexists; reflexivity.
  - left. eexists; reflexivity.
Qed.

(** ** Every operation *)

(** The variables that an operation uses. *)
Definition uses (p : op) : list nat :=
  match p with
  | ONew => []
  | ODelete a | OPlain a _ | OStr a _ | OCopy a | ORef a | OAt a _ | OErase a _ | OClear a | ORead a | OExists a => [a]
  | OAssign a b | OReassign a b | OAppend a b | OSet a _ b => [a; b]
  end.
(** What is asked of the states in which assignments and ReassignRef are used. *)
Definition allowed (st : lst) (p : op) : Prop :=
  match p with
  | OAssign src dst =>
      (forall o z, l_obj st dst = Some o -> o_c o <> KProxy z) \/
      (forall o, l_obj st src = Some o -> is_ref (o_c o) = false)
  | OReassign r _ => exists o t, l_obj st r = Some o /\ o_c o = KRef t
  | _ => True
  end.
Definition gone (p : op) (a : nat) : Prop := match p with ODelete b => a = b | _ => False end.

Lemma run_spec st p : ok st -> acyclic st -> (forall a, In a (uses p) -> client st a) -> allowed st p ->
  wp (run p) (fun ans st' => ok st' /\ (forall a, client st a -> ~ gone p a -> client st' a) /\
       (forall r, ans = AObj r -> client st' r) /\
       (forall a, a < l_no st -> l_obj st a = None -> l_obj st' a = None) /\ l_pins st' = l_pins st)
     (fun st' => ok st' /\ (forall a, client st a -> client st' a) /\
       (forall a, a < l_no st -> l_obj st a = None -> l_obj st' a = None) /\ l_pins st' = l_pins st) st.
Proof.
  intros H [rk A] HU HA. pose proof H as [W T].
  set (Q := fun ans st' => ok st' /\ (forall a, client st a -> ~ gone p a -> client st' a) /\
       (forall r, ans = AObj r -> client st' r) /\
       (forall a, a < l_no st -> l_obj st a = None -> l_obj st' a = None) /\ l_pins st' = l_pins st).
  set (E := fun st' => ok st' /\ (forall a, client st a -> client st' a) /\
       (forall a, a < l_no st -> l_obj st a = None -> l_obj st' a = None) /\ l_pins st' = l_pins st).
  assert (SE : forall st', safe st st' -> E st').
  { intros st' [O F]. split; auto. split; [intros a; now apply client_fr|]. split; [apply (fr_dead_o _ _ _ F)|apply (fr_pins _ _ _ F)]. }
  assert (SQ : forall st' ans, safe st st' -> (forall r, ans <> AObj r) -> Q ans st').
  { intros st' ans [O F] N. split; auto. split; [intros a Ha _; exact (client_fr _ _ _ H ltac:(eassumption) Ha)|]. split; [|split; [apply (fr_dead_o _ _ _ F)|apply (fr_pins _ _ _ F)]]. intros r Hr. exfalso; eapply N; eauto. }
  assert (DN : forall {B} (m : L B), wp m (fun _ => safe st) (safe st) st -> wp (m >>> lret ADone) Q E st).
  { intros B m Hm. apply wp_bind. eapply wp_mono; [exact Hm| |exact SE]. intros b st' S. eapply wp_ok; [reflexivity|].
    apply SQ; auto. discriminate. }
  assert (CN : forall f, wp (f (l_no st)) (fun _ st' => ok st' /\ fr (Some (l_no st)) (add_obj st (KPlain VNull)) st')
       (fun st' => ok st' /\ fr (Some (l_no st)) (add_obj st (KPlain VNull)) st') (add_obj st (KPlain VNull)) ->
     wp (dl a <- construct f; lret (AObj a)) Q E st).
  { intros f Hf. apply wp_bind. eapply wp_mono; [eapply (construct_spec rk st f H A Hf)| |exact SE].
    intros r st' [-> [[O F] C]]. eapply wp_ok; [reflexivity|]. split; auto. split; [intros a Ha _; exact (client_fr _ _ _ H ltac:(eassumption) Ha)|].
    split; [|split; [apply (fr_dead_o _ _ _ F)|apply (fr_pins _ _ _ F)]]. intros r Er. injection Er as <-. exact C. }
  destruct (new_spec rk st (KPlain VNull) H A Logic.I) as [O0 [F0 [A0 [E0 N0]]]].
  assert (C0 : forall a, client st a -> client (add_obj st (KPlain VNull)) a /\ a <> l_no st).
  { intros a Ha. split; [exact (client_fr _ _ _ H F0 Ha)|]. destruct Ha as [[o Eo] _]. pose proof (wf_ob _ _ W _ _ Eo). lia. }
  destruct p as [|a|a v|a b|src dst|src|a|r a|a e|a src|a e src|a e|a|a|a]; cbn [run] in *.
  - (* ONew *) apply (wp_step _ _ _ _ _ (l_no st) (add_obj st (KPlain VNull))); [reflexivity|].
    eapply wp_ok; [reflexivity|]. split; auto. split; [intros a Ha _; exact (client_fr _ _ _ H ltac:(eassumption) Ha)|].
    split; [|split; [apply (fr_dead_o _ _ _ F0)|apply (fr_pins _ _ _ F0)]]. intros r Er. injection Er as <-. split; eauto.
  - (* ODelete *) destruct (destruct_spec st a H (HU a (or_introl eq_refl))) as [st' [E' [O' [_ [C' [_ [D' _]]]]]]].
    eapply wp_step; [exact E'|]. eapply wp_ok; [reflexivity|]. split; auto. split; [|split; [discriminate|split; [auto|]]].
    + intros b Hb Ng. apply C'; auto.
    + unfold destruct_obj in E'. destruct (l_obj st a) as [oa|] eqn:Ea; [|discriminate]. injection E' as <-.
      rewrite (sh_pins _ _ (gc_shrinks _ _)). unfold kill_obj. rewrite Ea.
      destruct (is_ref (o_c oa)); [reflexivity|]. destruct (o_tok oa); reflexivity.
  - (* OPlain *) destruct (HU a (or_introl eq_refl)) as [[oa Ea] Na]. apply wp_bind.
    eapply wp_mono; [eapply (reach_spec rk st a oa RCreate H A Ea); left; discriminate| |exact SE].
    intros t st1 [HF [[ot [Et Rt]] _]]. cbv beta. pose proof HF as [O1 [F1 [_ [rk1 A1]]]].
    destruct (plain_init_spec rk1 st1 t ot v O1 A1 Et Rt) as [st2 [E2 [O2 [A2 [F2 _]]]]].
    eapply wp_step; [exact E2|]. eapply wp_ok; [reflexivity|]. apply SQ; [|discriminate]. split; auto. eapply fr_trans; eauto.
  - (* OStr *) destruct (HU a (or_introl eq_refl)) as [[oa Ea] Na]. apply wp_bind.
    eapply wp_mono; [eapply (reach_spec rk st a oa RCreate H A Ea); left; discriminate| |exact SE].
    intros t st1 [HF [[ot [Et Rt]] _]]. cbv beta. pose proof HF as [O1 [F1 [_ [rk1 A1]]]].
    destruct (init_sto_spec KStr (SStr b) rk1 0%Z st1 t ot (empty_str b) O1 A1 Et Rt) as [st2 [rk2 [E2 [O2 [A2 [F2 _]]]]]].
    eapply wp_step; [exact E2|]. eapply wp_ok; [reflexivity|]. apply SQ; [|discriminate]. split; auto. eapply fr_trans; eauto.
  - (* OAssign *) destruct (HU src (or_introl eq_refl)) as [[os Es] Ns].
    destruct (HU dst (or_intror (or_introl eq_refl))) as [[od Ed] Nd]. apply DN.
    eapply wp_mono; [eapply (assign_spec rk st src os dst od H A Es Ed Ns Nd)| |auto].
    + destruct HA as [HA|HA]; [left|right]; eauto.
    + intros _ st' [S _]. exact S.
  - (* OCopy *) destruct (HU src (or_introl eq_refl)) as [[os Es] Ns]. apply CN.
    destruct (C0 src (HU src (or_introl eq_refl))) as [[[os' Es'] Ns'] _].
    eapply wp_mono; [eapply (assign_spec rk _ src os' (l_no st) _ O0 A0 Es' E0 Ns' N0); left; discriminate| |].
    + intros _ st' [[O F] _]. split; auto. now apply fr_weak.
    + intros st' [O F]. split; auto. now apply fr_weak.
  - (* ORef *) apply CN. destruct (C0 a (HU a (or_introl eq_refl))) as [[[oa Ea] Na] Nl].
    eapply wp_mono; [eapply (make_ref_spec rk _ a oa (l_no st) _ O0 A0 Ea E0 eq_refl); [right; auto|exact N0]| |].
    + intros _ st' [O [F _]]. split; auto.
    + intros st' ->. split; auto. apply fr_refl.
  - (* OReassign *) destruct HA as [o [t [Er Cr]]]. destruct (HU r (or_introl eq_refl)) as [_ Nr].
    destruct (HU a (or_intror (or_introl eq_refl))) as [[oa Ea] Na]. apply DN.
    eapply wp_mono; [eapply (make_ref_spec rk st a oa r o H A Ea Er); [now rewrite Cr|left; now rewrite Cr|exact Nr]| |].
    + intros _ st' [O [F _]]. split; auto. unfold oldref in F. rewrite Cr in F. exact F.
    + intros st' ->. apply safe_refl; auto.
  - (* OAt *) apply CN. destruct (C0 a (HU a (or_introl eq_refl))) as [[[oa Ea] Na] Nl].
    eapply make_at_spec; eauto.
  - (* OAppend *) apply DN. apply (with_temp_spec rk); auto.
    destruct (C0 a (HU a (or_introl eq_refl))) as [Ca _].
    destruct (C0 src (HU src (or_intror (or_introl eq_refl)))) as [[[os Es] Ns] _].
    apply wp_bind. eapply wp_mono; [eapply (assign_spec rk _ src os (l_no st) _ O0 A0 Es E0 Ns N0); left; discriminate| |auto].
    intros _ st1 [S1 Ha]. cbv beta. destruct (Ha eq_refl) as [rk1 A1]. pose proof S1 as [O1 F1].
    destruct (client_fr _ _ _ O0 F1 Ca) as [[oa Ea] _].
    destruct (fr_root _ _ _ F1 (l_no st) _ (wf_ob _ _ (proj1 O0) _ _ E0) E0 N0) as [ov [Ev [Nv Rv]]].
    eapply wp_mono; [eapply (append_spec rk1 st1 a oa (l_no st) ov); auto; rewrite Rv; [auto|discriminate]| |].
    + intros ? st2 S2. eapply safe_trans; eauto.
    + intros st2 S2. eapply safe_trans; eauto.
  - (* OSet *) apply DN. apply (with_temp_spec rk); auto.
    destruct (C0 a (HU a (or_introl eq_refl))) as [Ca _].
    destruct (C0 src (HU src (or_intror (or_introl eq_refl)))) as [[[os Es] Ns] _].
    apply wp_bind. eapply wp_mono; [eapply (assign_spec rk _ src os (l_no st) _ O0 A0 Es E0 Ns N0); left; discriminate| |auto].
    intros _ st1 [S1 Ha]. cbv beta. destruct (Ha eq_refl) as [rk1 A1]. pose proof S1 as [O1 F1].
    destruct (client_fr _ _ _ O0 F1 Ca) as [[oa Ea] _].
    destruct (fr_root _ _ _ F1 (l_no st) _ (wf_ob _ _ (proj1 O0) _ _ E0) E0 N0) as [ov [Ev [Nv Rv]]].
    eapply wp_mono; [eapply (set_elem_spec rk1 st1 a oa e (l_no st) ov); auto; rewrite Rv; [auto|discriminate]| |].
    + intros ? st2 S2. eapply safe_trans; eauto.
    + intros st2 S2. eapply safe_trans; eauto.
  - destruct (HU a (or_introl eq_refl)) as [[oa Ea] Na]. apply DN. eapply erase_spec; eauto.
  - destruct (HU a (or_introl eq_refl)) as [[oa Ea] Na]. apply DN. eapply clear_spec; eauto.
  - (* ORead *) destruct (HU a (or_introl eq_refl)) as [[oa Ea] Na]. apply wp_bind.
    eapply wp_mono; [eapply (reach_spec rk st a oa RThrow H A Ea); left; discriminate| |exact SE].
    intros t st1 [HF [HO _]]. cbv beta. destruct (read_spec st1 t) as [v Ev]; [apply HF|exact HO|].
    eapply wp_step; [exact Ev|]. eapply wp_ok; [reflexivity|]. apply SQ; [apply fine_safe; auto|discriminate].
  - (* OExists *) destruct (HU a (or_introl eq_refl)) as [[oa Ea] Na].
    destruct (exists_spec st a oa H Ea) as [[b Eb]|[x Ex]].
    + eapply wp_step; [exact Eb|]. eapply wp_ok; [reflexivity|]. apply SQ; [apply safe_refl; auto|discriminate].
    + unfold wp, lbind. rewrite Ex. apply SE, safe_refl; auto.
Qed.

(** ** Histories *)

(** The variables a program has after an operation: those made, without those that went out of
    scope. *)
Definition vars_after (V : list nat) (p : op) (ans : answer) : list nat :=
  match p, ans with
  | ODelete a, _ => filter (fun b => negb (Nat.eqb b a)) V
  | _, AObj r => r :: V
  | _, _ => V
  end.
(** States that a program reaches that uses only variables it has, assigns and reassigns as
    [allowed] says and never works on a cyclic value.  [coins] says when vectors move. *)
Inductive hist (coins : list bool) : list nat -> lst -> Prop :=
| hist_start : hist coins [] (empty_state coins)
| hist_ok V st p ans st' : hist coins V st -> incl (uses p) V -> allowed st p -> acyclic st ->
    run p st = (Ok ans, st') -> hist coins (vars_after V p ans) st'
| hist_throw V st p x st' : hist coins V st -> incl (uses p) V -> allowed st p -> acyclic st ->
    run p st = (Throw x, st') -> hist coins V st'.

Lemma empty_ok coins : ok (empty_state coins).
Proof.
  split; [|intros s x; discriminate]. constructor; cbn; intros; try discriminate. contradiction.
Qed.
Lemma hist_inv coins V st : hist coins V st -> ok st /\ forall a, In a V -> client st a.
Proof.
  intro H. induction H as [|V st p ans st' _ [O C] HU HA HC E|V st p x st' _ [O C] HU HA HC E].
  - split; [apply empty_ok|intros a []].
  - pose proof (run_spec st p O HC (fun a Ha => C a (HU a Ha)) HA) as R. unfold wp in R. rewrite E in R.
    destruct R as [O' [C1 [C2 _]]]. split; auto. intros a Ha.
    assert (X : (In a V /\ ~ gone p a) \/ ans = AObj a).
    { unfold vars_after in Ha. destruct p; cbn [gone]; try (destruct ans; [auto|destruct Ha as [<-|Ha]; auto|auto|auto]).
      apply filter_In in Ha. destruct Ha as [Ha Hn]. left. split; auto. intros ->. rewrite Nat.eqb_refl in Hn. discriminate. }
    destruct X as [[X1 X2]| ->]; auto.
  - pose proof (run_spec st p O HC (fun a Ha => C a (HU a Ha)) HA) as R. unfold wp in R. rewrite E in R.
    destruct R as [O' [C1 _]]. split; auto.
Qed.

Lemma hist_pins coins V st : hist coins V st -> l_pins st = [].
Proof.
  intro H. induction H as [|V st p ans st' H IH HU HA HC E|V st p x st' H IH HU HA HC E]; [reflexivity| |];
    destruct (hist_inv _ _ _ H) as [O C]; pose proof (run_spec st p O HC (fun a Ha => C a (HU a Ha)) HA) as R;
    unfold wp in R; rewrite E in R; rewrite <- IH; apply R.
Qed.

(** ** References to what is gone, and to what lives *)

(** [r] is a reference to [t], or a proxy for something inside it. *)
Definition refers (st : lst) (r t : nat) : Prop :=
  exists o, l_obj st r = Some o /\
    (o_c o = KRef t \/ exists z keep p, o_c o = KProxy z /\ l_sto st z = Some (SProxy t keep p)).

Lemma refers_linked st r t : wf None st -> refers st r t -> exists o, l_obj st r = Some o /\ linked st o t.
Proof.
  intros W [o [E H]]. exists o. split; auto. pose proof (wf_ct _ _ W _ _ E) as C.
  destruct H as [H|[z [keep [p [H Ez]]]]]; rewrite H in C; auto.
  destruct C as [t' [keep' [p' [Ez' Hl]]]]. rewrite Ez in Ez'. injection Ez' as <- _ _. exact Hl.
Qed.
Lemma dead_check st o t : wf None st -> linked st o t -> l_obj st t = None ->
  check_ref o st = (Throw InvalidReferenceError, st).
Proof.
  intros W Hl Et. destruct (check_ref_spec _ _ _ Hl W) as [[E _]|[_ [ot [E _]]]]; [auto|congruence].
Qed.
Lemma dead_reach st r t m : wf None st -> refers st r t -> l_obj st t = None ->
  reach m r st = (Throw InvalidReferenceError, st).
Proof.
  intros W H Et. destruct (refers_linked _ _ _ W H) as [o [E Hl]]. pose proof (dead_check _ _ _ W Hl Et) as D.
  destruct H as [o' [E' H]]. rewrite E in E'. injection E' as <-.
  unfold reach, lbind at 1, get_obj. rewrite E. destruct H as [H|[z [keep [p [H Ez]]]]]; rewrite H.
  - unfold target, lbind. now rewrite D.
  - unfold proxy_resolve, lbind, get_obj. rewrite E, H, D. reflexivity.
Qed.
Lemma dead_make_ref st r t a : wf None st -> refers st r t -> l_obj st t = None ->
  make_ref r a st = (Throw InvalidReferenceError, st).
Proof.
  intros W H Et. destruct (refers_linked _ _ _ W H) as [o [E Hl]]. pose proof (dead_check _ _ _ W Hl Et) as D.
  destruct H as [o' [E' H]]. rewrite E in E'. injection E' as <-.
  unfold make_ref, lbind at 1, get_obj. rewrite E. destruct H as [H|[z [keep [p [H Ez]]]]]; rewrite H;
    unfold lbind; rewrite D; reflexivity.
Qed.
Lemma dead_make_at st r t e a : wf None st -> refers st r t -> l_obj st t = None ->
  make_at r e a st = (Throw InvalidReferenceError, st).
Proof.
  intros W H Et. pose proof (dead_reach st r t RCheck W H Et) as R.
  destruct (refers_linked _ _ _ W H) as [o [E Hl]]. pose proof (dead_check _ _ _ W Hl Et) as D.
  destruct H as [o' [E' H]]. rewrite E in E'. injection E' as <-.
  unfold make_at, lbind at 1, get_obj at 1. rewrite E. destruct H as [H|[z [keep [p [H Ez]]]]]; rewrite H.
  - unfold lbind. rewrite R. reflexivity.
  - unfold lbind at 1. unfold proxy_resolve, lbind, get_obj. rewrite E, H, D. reflexivity.
Qed.

Lemma refers_add st r t : wf None st -> refers st r t -> refers (add_obj st (KPlain VNull)) r t.
Proof.
  intros W [o [E H]]. exists o. split; auto. cbn. rewrite upd_ne; auto. pose proof (wf_ob _ _ W _ _ E). lia.
Qed.

(** What reading an object shows. *)
Inductive seen (st : lst) (t : nat) : view -> Prop :=
| seen_plain v k : l_obj st t = Some (Obj (KPlain v) k) -> seen st t (RPlain v)
| seen_str s k b : l_obj st t = Some (Obj (KStr s) k) -> l_sto st s = Some (SStr b) -> seen st t (RStr b)
| seen_list s k l : l_obj st t = Some (Obj (KList s) k) -> l_sto st s = Some (SList l) ->
    seen st t (RList (N.of_nat (List.length l)))
| seen_map s k m : l_obj st t = Some (Obj (KMap s) k) -> l_sto st s = Some (SMap m) -> seen st t (RMap (map fst m)).

Lemma read_seen st t : ok st -> ordinary st t -> exists w, read_obj t st = (Ok w, st) /\ seen st t w.
Proof.
  intros [W T] [[c k] [E R]]. pose proof (wf_ct _ _ W _ _ E) as C. unfold read_obj, lbind, get_obj, get_sto. rewrite E.
  cbn [o_c] in *. destruct c; try discriminate; cbn in C; try discriminate.
  - eexists; split; [reflexivity|]. econstructor; eauto.
  - destruct C as [b C]. rewrite C. eexists; split; [reflexivity|]. econstructor; eauto.
  - destruct C as [b C]. rewrite C. eexists; split; [reflexivity|]. econstructor; eauto.
  - destruct C as [b C]. rewrite C. eexists; split; [reflexivity|]. eapply seen_map; eauto.
Qed.

Lemma live_reach st r t k m : wf None st -> l_obj st r = Some (Obj (KRef t) k) -> (exists ot, l_obj st t = Some ot) ->
  reach m r st = (Ok t, st) /\ reach m t st = (Ok t, st) /\ ordinary st t.
Proof.
  intros W E [ot Et]. pose proof (wf_ct _ _ W _ _ E) as C. cbn in C.
  destruct (target_spec _ _ _ C W) as [[_ X]|[X [ot' [Et' Rt]]]]; [congruence|].
  split; [unfold reach, lbind, get_obj; rewrite E; exact X|]. split; [|exists ot'; auto].
  pose proof (not_none _ _ _ _ W Et' ltac:(discriminate)) as NN.
  unfold reach, lbind, get_obj. rewrite Et'. destruct (o_c ot'); try discriminate; try reflexivity.
  exfalso; eapply NN; eauto.
Qed.

(** A plain value written: the object has it and no variable but the object changes. *)
Lemma plain_init_frame rk st t ot v st' : ok st -> acyc rk st -> l_obj st t = Some ot -> is_ref (o_c ot) = false ->
  plain_init t v st = (Ok tt, st') ->
  l_obj st' t = Some (Obj (KPlain v) (o_tok ot)) /\
  forall b, b <> t -> ~ elem_of st b -> l_obj st' b = l_obj st b.
Proof.
  intros H A Et Rt E. destruct (destroy_state rk st t ot H A Et) as [st1 [E1 [W1 [T1 [A1 [F1 [S1 O1]]]]]]].
  unfold plain_init, lbind in E. rewrite E1 in E. rewrite (fill_run _ _ _ _ O1) in E. injection E as <-.
  cbn. split; [apply upd_eq|]. intros b Nb Hb. rewrite upd_ne by auto.
  assert (X0 : l_obj (hole st t ot) b = l_obj st b) by (cbn; apply upd_ne; auto).
  destruct (sh_obj _ _ S1 b) as [X|X]; [|now rewrite X].
  destruct (l_obj st b) as [ob|] eqn:Eb; [|auto]. exfalso. apply Hb. rewrite <- (elem_hole st t ot).
  eapply (sh_elem _ _ S1); [exact X0|exact X].
Qed.

(** ** A reference as a source, or as a destination of something that is not a reference *)

(** What a use of a live reference looks at. *)
Record live (st : lst) (r t : nat) : Prop := {
  lv_r : exists k, l_obj st r = Some (Obj (KRef t) (Some k)) /\ l_tok st k = true;
  lv_t : exists ot, l_obj st t = Some ot /\ is_ref (o_c ot) = false /\ forall b, o_c ot <> KNone b
}.
Lemma live_of st r t k : wf None st -> l_obj st r = Some (Obj (KRef t) k) -> (exists ot, l_obj st t = Some ot) ->
  live st r t.
Proof.
  intros W E [ot Et]. pose proof (wf_ct _ _ W _ _ E) as C. cbn in C. destruct C as [_ [k' [Ek [_ C2]]]].
  cbn in Ek. destruct (C2 _ Et) as [Rt Kt]. split.
  - exists k'. subst k. split; auto. exact (wf_tv _ _ W _ _ _ Et Rt Kt).
  - exists ot. split; auto. split; auto. exact (not_none _ _ _ _ W Et ltac:(discriminate)).
Qed.
Lemma live_reaches st r t m : live st r t -> reach m r st = (Ok t, st) /\ reach m t st = (Ok t, st).
Proof.
  intros [[k [E K]] [ot [Et [Rt Nt]]]]. unfold reach, lbind, get_obj. rewrite E, Et. cbn [o_c]. split.
  - unfold target, lbind, check_ref, get_obj. cbn [o_tok]. now rewrite K, Et, Rt.
  - destruct (o_c ot); try discriminate; try reflexivity. exfalso; eapply Nt; eauto.
Qed.
Lemma live_ext st st' r t : live st r t -> l_obj st' r = l_obj st r -> l_obj st' t = l_obj st t -> l_tok st' = l_tok st ->
  live st' r t.
Proof. intros [[k [E K]] [ot H]] E1 E2 E3. split; [exists k; now rewrite E1, E3|exists ot; now rewrite E2]. Qed.
Lemma live_add st r t : wf None st -> live st r t -> live (add_obj st (KPlain VNull)) r t.
Proof.
  intros W H. eapply live_ext; [exact H| | |reflexivity]; cbn; apply upd_ne; destruct H as [[k [E _]] [ot [Et _]]].
  - pose proof (wf_ob _ _ W _ _ E). lia.
  - pose proof (wf_ob _ _ W _ _ Et). lia.
Qed.
Lemma live_make_ref st r t a : live st r t -> make_ref r a st = make_ref t a st.
Proof.
  intros [[k [E K]] [ot [Et [Rt Nt]]]]. unfold make_ref, lbind at 1, get_obj at 1. rewrite E. cbn [o_c].
  unfold lbind, check_ref. cbn [o_tok]. rewrite K. unfold get_obj. rewrite Et.
  destruct (o_c ot); try discriminate; try reflexivity. exfalso; eapply Nt; eauto.
Qed.
Lemma live_make_at st r t e a : live st r t -> make_at r e a st = make_at t e a st.
Proof.
  intros H. pose proof (live_reaches _ _ _ RCheck H) as [R1 R2]. destruct H as [[k [E K]] [ot [Et [Rt Nt]]]].
  unfold make_at, lbind at 1, get_obj at 1. rewrite E. cbn [o_c]. unfold lbind at 1. rewrite R1.
  symmetry. unfold lbind at 1, get_obj at 1. rewrite Et.
  destruct (o_c ot); try discriminate; try (unfold lbind at 1; rewrite R2; reflexivity). 
Qed.
Lemma live_assign st r t d : live st r t -> assign r d st = assign t d st.
Proof. intro H. pose proof (live_reaches _ _ _ RThrow H) as [R1 R2]. unfold assign, lbind. now rewrite R1, R2. Qed.
Lemma live_append st r t v : live st r t -> append r v st = append t v st.
Proof. intro H. pose proof (live_reaches _ _ _ RCreate H) as [R1 R2]. unfold append, lbind at 1. rewrite R1. symmetry. unfold lbind at 1. now rewrite R2. Qed.
Lemma live_set st r t e v : live st r t -> set_elem r e v st = set_elem t e v st.
Proof. intro H. pose proof (live_reaches _ _ _ RCreate H) as [R1 R2]. unfold set_elem, lbind at 1. rewrite R1. symmetry. unfold lbind at 1. now rewrite R2. Qed.

Lemma pin_cong {A} s (f g : L A) st : f (set_pins st (s :: l_pins st)) = g (set_pins st (s :: l_pins st)) ->
  pin s f st = pin s g st.
Proof. intro H. unfold pin. now rewrite H. Qed.
Lemma live_assign_to st r t s o : wf None st -> live st r t -> l_obj st s = Some o -> is_ref (o_c o) = false ->
  assign s r st = assign s t st.
Proof.
  intros W H Es Rs. pose proof (not_none _ _ _ _ W Es ltac:(discriminate)) as NN.
  assert (E1 : reach RThrow s st = (Ok s, st)).
  { unfold reach, lbind, get_obj. rewrite Es. destruct (o_c o); try discriminate; try reflexivity. exfalso; eapply NN; eauto. }
  unfold assign, lbind at 1. rewrite E1. symmetry. unfold lbind at 1. rewrite E1. symmetry.
  unfold assign_from, lbind at 1, get_obj at 1. rewrite Es. symmetry. unfold lbind at 1, get_obj at 1. rewrite Es. symmetry.
  pose proof (live_reaches _ _ _ RCreate H) as [R1 R2].
  assert (PI : forall z (f : nat -> L unit), pin z (lbind (reach RCreate r) f) st = pin z (lbind (reach RCreate t) f) st).
  { intros z f. apply pin_cong. assert (H' : live (set_pins st (z :: l_pins st)) r t) by (eapply live_ext; eauto).
    destruct (live_reaches _ _ _ RCreate H') as [X1 X2]. unfold lbind. now rewrite X1, X2. }
  destruct (o_c o) as [b|v|z|z|z|z|z]; try discriminate; auto.
  destruct v; unfold lbind at 1; rewrite R1; symmetry; unfold lbind at 1; rewrite R2; reflexivity.
Qed.

(** The parameter that is made from a source that is not a reference: nothing else changes. *)
Lemma temp_assign rk st s o : ok st -> acyc rk st -> l_obj st s = Some o -> is_ref (o_c o) = false ->
  let st0 := add_obj st (KPlain VNull) in
  exists st1, assign s (l_no st) st0 = (Ok tt, st1) /\ l_tok st1 = l_tok st /\ l_obj st1 (l_no st) <> None /\
    (forall x, x <> l_no st -> l_obj st1 x = l_obj st x) /\ l_sto st1 = l_sto st /\ l_coins st1 = l_coins st.
Proof.
  intros H A Es Rs st0. destruct (new_spec rk st (KPlain VNull) H A Logic.I) as [O0 [_ [A0 [E0 N0]]]]. fold st0 in O0, A0, E0, N0.
  pose proof (wf_ob _ _ (proj1 H) _ _ Es) as Hs.
  assert (Es0 : l_obj st0 s = Some o) by (cbn; rewrite upd_ne; auto; lia).
  pose proof (not_none _ _ _ _ (proj1 H) Es ltac:(discriminate)) as NN.
  assert (E1 : reach RThrow s st0 = (Ok s, st0)).
  { unfold reach, lbind, get_obj. rewrite Es0. destruct (o_c o); try discriminate; try reflexivity. exfalso; eapply NN; eauto. }
  assert (RU : forall pins, reach RCreate (l_no st) (set_pins st0 pins) = (Ok (l_no st), set_pins st0 pins)).
  { intro pins. unfold reach, lbind, get_obj. cbn [l_obj set_pins]. rewrite E0. reflexivity. }
  unfold assign, lbind at 1. rewrite E1. unfold assign_from, lbind at 1, get_obj at 1. rewrite Es0.
  assert (PL : forall v, plain_init (l_no st) v st0 = (Ok tt, fill (hole st0 (l_no st) (Obj (KPlain VNull) None)) (l_no st) (KPlain v) None)).
  { intro v. unfold plain_init, lbind at 1. rewrite (destroy_simple st0 _ _ O0 E0 eq_refl). exact (fill_run _ _ _ (KPlain v) (hole_obj st0 (l_no st) (Obj (KPlain VNull) None))). }
  assert (FR : forall c x, x <> l_no st ->
    l_obj (fill (hole st0 (l_no st) (Obj (KPlain VNull) None)) (l_no st) c None) x = l_obj st x).
  { intros c x Nx. cbn. rewrite !upd_ne; auto. }
  assert (RU0 : reach RCreate (l_no st) st0 = (Ok (l_no st), st0)) by (apply (RU (l_pins st0))).
  assert (SH : forall c z, holds c = Some z -> cvalid st0 c -> 
    exists st1, pin z (dl d <- reach RCreate (l_no st); destroy d >>> set_content d c) st0 = (Ok tt, st1) /\
      l_tok st1 = l_tok st /\ l_obj st1 (l_no st) <> None /\
      (forall x, x <> l_no st -> l_obj st1 x = l_obj st x) /\ l_sto st1 = l_sto st /\ l_coins st1 = l_coins st).
  { intros c z Hz Hv. destruct (cvalid_nonref _ _ _ Hv Hz) as [y [Ey _]].
    set (stp := set_pins st0 (z :: l_pins st0)).
    assert (Op : ok stp) by (apply ok_set_pins; eauto).
    assert (IN : (dl d <- reach RCreate (l_no st); destroy d >>> set_content d c) stp =
      (Ok tt, fill (hole stp (l_no st) (Obj (KPlain VNull) None)) (l_no st) c None)).
    { unfold lbind at 1. unfold stp at 1. rewrite RU. fold stp. unfold lbind at 1.
      rewrite (destroy_simple stp _ _ Op E0 eq_refl). exact (fill_run _ _ _ c (hole_obj stp (l_no st) (Obj (KPlain VNull) None))). }
    unfold pin. fold stp. rewrite IN. eexists. split; [reflexivity|].
    set (st2 := set_pins (fill (hole stp (l_no st) (Obj (KPlain VNull) None)) (l_no st) c None) (l_pins st0)).
    assert (T2 : tight st2).
    { change st2 with (fill (hole st0 (l_no st) (Obj (KPlain VNull) None)) (l_no st) c None).
      eapply tight_fill; [apply wf_hole; [apply O0|exact E0]|apply hole_obj|reflexivity|].
      apply tight_hole; [apply O0|apply O0|exact E0|reflexivity]. }
    rewrite (gc_id _ _ T2). split; [reflexivity|]. split; [cbn; rewrite upd_eq; discriminate|].
    split; [|split; reflexivity]. intros x Nx. cbn. rewrite !upd_ne; auto. }
  assert (Hv : cvalid st0 (o_c o)) by (eapply cvalid_of; eauto; [apply O0|discriminate]).
  assert (G : get_obj s st0 = (Ok o, st0)) by (apply get_run; exact Es0).
  destruct (o_c o) as [b|v|z|z|z|z|z] eqn:Ec; try discriminate.
  - exfalso; eapply NN; eauto.
  - destruct v; unfold lbind at 1; rewrite RU0; try (unfold lbind at 1; rewrite G, Ec); rewrite PL; eexists; (split; [reflexivity|]); (split; [reflexivity|]);
      (split; [cbn; rewrite upd_eq; discriminate|]); (split; [apply FR|split; reflexivity]).
  - eapply SH; eauto.
  - eapply SH; eauto.
  - eapply SH; eauto.
Qed.
Lemma with_temp_cong {A} (f g : nat -> L A) st : f (l_no st) (add_obj st (KPlain VNull)) = g (l_no st) (add_obj st (KPlain VNull)) ->
  with_temp f st = with_temp g st.
Proof. intro H. unfold with_temp. change (new_obj (KPlain VNull) st) with (Ok (l_no st), add_obj st (KPlain VNull)). cbv iota beta. now rewrite H. Qed.
Lemma construct_cong (f g : nat -> L unit) st : f (l_no st) (add_obj st (KPlain VNull)) = g (l_no st) (add_obj st (KPlain VNull)) ->
  construct f st = construct g st.
Proof. intro H. unfold construct. change (new_obj (KPlain VNull) st) with (Ok (l_no st), add_obj st (KPlain VNull)). cbv iota beta. now rewrite H. Qed.
