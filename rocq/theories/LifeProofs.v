(** Proofs about Life.v: the invariant of the states that a program can reach. *)
From Coq Require Import Lia ZArith.
From Verif Require Import Base Float Value Path Life.
Open Scope nat_scope.

(** ** What a state is like *)

(** Object [a] is in some storage. *)
Definition elem_of (st : lst) (a : nat) : Prop :=
  exists s x, l_sto st s = Some x /\ In a (elems x).

(** A reference object [o] to [t]: its RefData is the one of [t], valid exactly while [t] lives. *)
Definition linked (st : lst) (o : obj) (t : nat) : Prop :=
  t < l_no st /\
  exists k, o_tok o = Some k /\
    (l_tok st k = true -> exists ot, l_obj st t = Some ot) /\
    (forall ot, l_obj st t = Some ot -> is_ref (o_c ot) = false /\ o_tok ot = Some k).

Definition cvalid (st : lst) (c : content) : Prop :=
  match c with
  | KPlain _ => True
  | KStr s => exists b, l_sto st s = Some (SStr b)
  | KList s => exists l, l_sto st s = Some (SList l)
  | KMap s => exists m, l_sto st s = Some (SMap m)
  | _ => False
  end.

Definition kind (x : sto) : nat :=
  match x with SStr _ => 0 | SList _ => 1 | SMap _ => 2 | SProxy _ _ _ => 3 end.

Record wf (h : option nat) (st : lst) : Prop := {
  wf_ob : forall a o, l_obj st a = Some o -> a < l_no st;
  wf_sb : forall s x, l_sto st s = Some x -> s < l_ns st;
  wf_tb : forall a o k, l_obj st a = Some o -> o_tok o = Some k -> k < l_nt st;
  wf_ct : forall a o, l_obj st a = Some o ->
    match o_c o with
    | KNone _ => h = Some a
    | KRef t => linked st o t
    | KProxy s => exists t keep p, l_sto st s = Some (SProxy t keep p) /\ linked st o t
    | c => cvalid st c
    end;
  wf_tv : forall a o k, l_obj st a = Some o -> is_ref (o_c o) = false ->
    o_tok o = Some k -> l_tok st k = true;
  wf_tu : forall a b oa ob k, l_obj st a = Some oa -> l_obj st b = Some ob ->
    is_ref (o_c oa) = false -> is_ref (o_c ob) = false ->
    o_tok oa = Some k -> o_tok ob = Some k -> a = b;
  wf_el : forall s x e, l_sto st s = Some x -> In e (elems x) ->
    exists o, l_obj st e = Some o /\ is_ref (o_c o) = false;
  wf_nd : forall s x, l_sto st s = Some x -> NoDup (elems x);
  wf_dj : forall s s' x x' e, l_sto st s = Some x -> l_sto st s' = Some x' ->
    In e (elems x) -> In e (elems x') -> s = s';
  wf_kp : forall z t k p, l_sto st z = Some (SProxy t (Some k) p) ->
    exists y, l_sto st k = Some y /\ kind y <> 3;
  wf_px : forall z t k p, l_sto st z = Some (SProxy t k p) -> t < l_no st;
  wf_pn : forall s, In s (l_pins st) -> exists y, l_sto st s = Some y
}.

(** Every storage is held by somebody. *)
Definition tight (st : lst) : Prop := forall s x, l_sto st s = Some x -> owned st s = true.

(** The storages can be numbered so that the elements of a storage hold only lower ones, and so
    that this remains true if the objects that proxies start from held what the proxies keep. *)
Definition acyc (rk : nat -> Z) (st : lst) : Prop :=
  (forall T x e o S, l_sto st T = Some x -> In e (elems x) -> l_obj st e = Some o ->
     holds (o_c o) = Some S -> (rk S < rk T)%Z) /\
  (forall z t S p T x, l_sto st z = Some (SProxy t (Some S) p) -> l_sto st T = Some x ->
     In t (elems x) -> (rk S < rk T)%Z).

(** ** Ownership *)

Lemma owned_spec st s : owned st s = true <->
  (exists a o, a < l_no st /\ l_obj st a = Some o /\ holds (o_c o) = Some s) \/
  (exists z t p, z < l_ns st /\ l_sto st z = Some (SProxy t (Some s) p)) \/
  In s (l_pins st).
Proof.
  unfold owned. rewrite !orb_true_iff, !existsb_exists. split.
  - intros [[[a [Ha H]]|[z [Hz H]]]|[y [Hy H]]].
    + left. unfold obj_holds in H. destruct (l_obj st a) as [o|] eqn:E; try discriminate.
      destruct (holds (o_c o)) eqn:Eh; try discriminate. apply Nat.eqb_eq in H. subst.
      exists a, o. apply in_seq in Ha. split; [lia|auto].
    + right; left. unfold proxy_keeps in H. destruct (l_sto st z) as [[| | |t [k|] p]|] eqn:E; try discriminate.
      apply Nat.eqb_eq in H. subst. exists z, t, p. apply in_seq in Hz. split; [lia|auto].
    + right; right. apply Nat.eqb_eq in H. subst. auto.
  - intros [[a [o [Ha [E Eh]]]]|[[z [t [p [Hz E]]]]|H]].
    + left; left. exists a. split; [apply in_seq; lia|]. unfold obj_holds. rewrite E, Eh. apply Nat.eqb_refl.
    + left; right. exists z. split; [apply in_seq; lia|]. unfold proxy_keeps. rewrite E. apply Nat.eqb_refl.
    + right. exists s. split; auto. apply Nat.eqb_refl.
Qed.

Lemma garbage_some st s : garbage st = Some s ->
  (exists x, l_sto st s = Some x) /\ owned st s = false /\ s < l_ns st.
Proof.
  unfold garbage. intro H. apply find_some in H. destruct H as [Hi H].
  apply in_seq in Hi. destruct (l_sto st s) as [x|]; try discriminate.
  split; [eauto|]. split; [|lia]. destruct (owned st s); auto; discriminate.
Qed.
Lemma garbage_none h st : wf h st -> garbage st = None -> tight st.
Proof.
  intros W H s x E. unfold garbage in H.
  assert (Hi : In s (seq 0 (l_ns st))). { apply in_seq. pose proof (wf_sb _ _ W _ _ E). lia. }
  pose proof (find_none _ _ H _ Hi) as F. cbn in F. rewrite E in F.
  destruct (owned st s); auto; discriminate.
Qed.
Lemma tight_garbage st : tight st -> garbage st = None.
Proof.
  intro T. destruct (garbage st) as [s|] eqn:E; auto. apply garbage_some in E.
  destruct E as [[x Ex] [Eo _]]. rewrite (T _ _ Ex) in Eo. discriminate.
Qed.

(** ** Killing objects *)

Definition mem (a : nat) (l : list nat) : bool := existsb (Nat.eqb a) l.
Lemma mem_In a l : mem a l = true <-> In a l.
Proof.
  unfold mem. rewrite existsb_exists. split.
  - intros [x [Hx E]]. apply Nat.eqb_eq in E. subst. auto.
  - intro H. exists a. split; auto. apply Nat.eqb_refl.
Qed.
Lemma mem_not a l : mem a l = false <-> ~ In a l.
Proof. rewrite <- mem_In. destruct (mem a l); intuition discriminate. Qed.

Lemma upd_eq {A} (f : nat -> A) a x : upd f a x a = x.
Proof. unfold upd. now rewrite Nat.eqb_refl. Qed.
Lemma upd_ne {A} (f : nat -> A) a x b : b <> a -> upd f a x b = f b.
Proof. unfold upd. intro H. apply Nat.eqb_neq in H. now rewrite H. Qed.

Lemma kill_obj_obj st a b : l_obj (kill_obj st a) b = if Nat.eqb b a then None else l_obj st b.
Proof.
  unfold kill_obj. destruct (l_obj st a) as [o|] eqn:E.
  - destruct (is_ref (o_c o)); [reflexivity|]. destruct (o_tok o); reflexivity.
  - destruct (Nat.eqb_spec b a); subst; auto.
Qed.
Lemma kill_obj_tok st a k : l_tok (kill_obj st a) k = true <->
  l_tok st k = true /\
  (forall o, l_obj st a = Some o -> is_ref (o_c o) = false -> o_tok o <> Some k).
Proof.
  unfold kill_obj. destruct (l_obj st a) as [o|] eqn:E.
  - destruct (is_ref (o_c o)) eqn:Er; [|destruct (o_tok o) as [j|] eqn:Et]; cbn.
    + split; [intro H; split; auto; intros o' Eo Er'; congruence|tauto].
    + unfold upd. destruct (Nat.eqb_spec k j).
      * split; [discriminate|]. intros [_ H]. subst. exfalso. apply (H o); auto.
      * split; [|tauto]. intro H. split; auto. intros o' Eo Er'. congruence.
    + split; [|tauto]. intro H. split; auto. intros o' Eo Er'. congruence.
  - split; [|tauto]. intro H. split; auto. intros; discriminate.
Qed.
Lemma kill_obj_rest st a : l_no (kill_obj st a) = l_no st /\ l_sto (kill_obj st a) = l_sto st /\
  l_ns (kill_obj st a) = l_ns st /\ l_nt (kill_obj st a) = l_nt st /\
  l_pins (kill_obj st a) = l_pins st /\ l_coins (kill_obj st a) = l_coins st.
Proof.
  unfold kill_obj. destruct (l_obj st a) as [o|]; [|auto 10].
  destruct (is_ref (o_c o)); [|destruct (o_tok o)]; cbn; auto 10.
Qed.

Lemma kills_obj l st b :
  l_obj (fold_left kill_obj l st) b = if mem b l then None else l_obj st b.
Proof.
  revert st. induction l as [|a l IH]; intro st; cbn; auto.
  rewrite IH, kill_obj_obj. unfold mem. cbn. destruct (Nat.eqb b a); cbn; auto.
  now destruct (existsb (Nat.eqb b) l).
Qed.
Lemma kills_tok l st k :
  l_tok (fold_left kill_obj l st) k = true <->
  l_tok st k = true /\
  (forall a o, In a l -> l_obj st a = Some o -> is_ref (o_c o) = false -> o_tok o <> Some k).
Proof.
  revert st. induction l as [|a l IH]; intro st; cbn [fold_left].
  - cbn. intuition.
  - rewrite IH, kill_obj_tok. split.
    + intros [[H1 H2] H3]. split; auto. intros b o [->|Hb] Eo Er; [now apply H2|].
      destruct (Nat.eq_dec b a) as [->|N]; [now apply H2|].
      apply (H3 b o); auto. rewrite kill_obj_obj. apply Nat.eqb_neq in N. now rewrite N.
    + intros [H1 H2]. split; [split; auto|].
      * intros o Eo Er. apply (H2 a o); auto. now left.
      * intros b o Hb Eo Er. rewrite kill_obj_obj in Eo. destruct (Nat.eqb_spec b a); try discriminate.
        apply (H2 b o); auto. now right.
Qed.
Lemma kills_rest l st : l_no (fold_left kill_obj l st) = l_no st /\
  l_sto (fold_left kill_obj l st) = l_sto st /\
  l_ns (fold_left kill_obj l st) = l_ns st /\ l_nt (fold_left kill_obj l st) = l_nt st /\
  l_pins (fold_left kill_obj l st) = l_pins st /\ l_coins (fold_left kill_obj l st) = l_coins st.
Proof.
  revert st. induction l as [|a l IH]; intro st; cbn [fold_left]; auto 10.
  destruct (kill_obj_rest st a) as [H1 [H2 [H3 [H4 [H5 H6]]]]].
  destruct (IH (kill_obj st a)) as [I1 [I2 [I3 [I4 [I5 I6]]]]]. repeat split; congruence.
Qed.
Ltac kr l st := let H := fresh "Kr" in pose proof (kills_rest l st) as H;
  let H1 := fresh "Kno" in let H2 := fresh "Ksto" in let H3 := fresh "Kns" in
  let H4 := fresh "Knt" in let H5 := fresh "Kpin" in let H6 := fresh "Kco" in
  destruct H as [H1 [H2 [H3 [H4 [H5 H6]]]]].

Lemma linked_kill h st l o t a : wf h st -> l_obj st a = Some o -> linked st o t ->
  linked (fold_left kill_obj l st) o t.
Proof.
  intros W Ea [Ht [k [Et [Hv Hl]]]]. kr l st. split; [now rewrite Kno|].
  exists k. split; auto. split.
  - rewrite kills_tok. intros [H1 H2]. destruct (Hv H1) as [ot Eot]. rewrite kills_obj.
    destruct (mem t l) eqn:Em; [|eauto]. apply mem_In in Em. destruct (Hl _ Eot) as [Hr Hk].
    exfalso. apply (H2 t ot); auto.
  - intros ot Eot. rewrite kills_obj in Eot. destruct (mem t l); try discriminate. auto.
Qed.

(** Objects that are in no storage can be killed. *)
Lemma wf_kills h st l : wf h st -> (forall a, In a l -> ~ elem_of st a) ->
  wf h (fold_left kill_obj l st).
Proof.
  intros W HE. kr l st.
  assert (HO : forall a o, l_obj (fold_left kill_obj l st) a = Some o -> l_obj st a = Some o /\ ~ In a l).
  { intros a o H. rewrite kills_obj in H. destruct (mem a l) eqn:Em; try discriminate.
    split; auto. now apply mem_not. }
  constructor.
  - intros a o H. apply HO in H. rewrite Kno. eapply wf_ob; [exact W|]. apply H.
  - intros s x. rewrite Ksto, Kns. apply (wf_sb _ _ W).
  - intros a o k H. apply HO in H. rewrite Knt. apply (wf_tb _ _ W a). tauto.
  - intros a o H. apply HO in H. destruct H as [Ea _]. pose proof (wf_ct _ _ W _ _ Ea) as C.
    unfold cvalid in *. destruct (o_c o); rewrite ?Ksto; auto.
    + eapply linked_kill; eauto.
    + destruct C as [t [kp [p [E Lk]]]]. exists t, kp, p. split; auto. eapply linked_kill; eauto.
  - intros a o k H Hr Hk. apply HO in H. destruct H as [Ea Na]. apply kills_tok. split.
    + eapply (wf_tv _ _ W); eauto.
    + intros b ob Hb Eb Hrb Hkb. assert (a = b) by (eapply (wf_tu _ _ W a b); eauto). subst. auto.
  - intros a b oa ob k Ha Hb. apply HO in Ha. apply HO in Hb. apply (wf_tu _ _ W); tauto.
  - intros s x e E He. rewrite Ksto in E. destruct (wf_el _ _ W _ _ _ E He) as [o [Eo Er]].
    exists o. split; auto. rewrite kills_obj. destruct (mem e l) eqn:Em; auto.
    apply mem_In in Em. exfalso. apply (HE _ Em). exists s, x. auto.
  - intros s x. rewrite Ksto. apply (wf_nd _ _ W).
  - intros s s' x x' e. rewrite Ksto. apply (wf_dj _ _ W).
  - intros z t k p. rewrite Ksto. apply (wf_kp _ _ W).
  - intros z t k p. rewrite Ksto, Kno. apply (wf_px _ _ W).
  - intros s. rewrite Kpin, Ksto. apply (wf_pn _ _ W).
Qed.

(** A storage that nobody holds can be freed. *)
Lemma wf_drop_sto h st s : wf h st -> owned st s = false -> wf h (set_stos st (upd (l_sto st) s None)).
Proof.
  intros W Ho.
  assert (No : forall a o, l_obj st a = Some o -> holds (o_c o) <> Some s).
  { intros a o Ea Eh. assert (owned st s = true); [|congruence]. apply owned_spec. left.
    exists a, o. split; auto. eapply wf_ob; eauto. }
  assert (Nk : forall z t p, l_sto st z <> Some (SProxy t (Some s) p)).
  { intros z t p E. assert (owned st s = true); [|congruence]. apply owned_spec. right; left.
    exists z, t, p. split; auto. eapply wf_sb; eauto. }
  assert (Np : ~ In s (l_pins st)).
  { intro H. assert (owned st s = true); [|congruence]. apply owned_spec. auto. }
  assert (HS : forall z x, upd (l_sto st) s None z = Some x -> l_sto st z = Some x /\ z <> s).
  { intros z x. unfold upd. destruct (Nat.eqb_spec z s); [discriminate|auto]. }
  assert (HS' : forall z x, l_sto st z = Some x -> z <> s -> upd (l_sto st) s None z = Some x).
  { intros z x E N. now rewrite upd_ne. }
  constructor; cbn.
  - apply (wf_ob _ _ W).
  - intros z x E. apply HS in E. eapply wf_sb; [exact W|apply E].
  - apply (wf_tb _ _ W).
  - intros a o Ea. pose proof (wf_ct _ _ W _ _ Ea) as C. pose proof (No _ _ Ea) as N.
    unfold cvalid in *. destruct (o_c o); cbn in N |- *; auto;
      try (destruct C as [y E]; exists y; apply HS'; [auto|congruence]).
    destruct C as [t [kp [p [E Lk]]]]. exists t, kp, p. split; [apply HS'; auto; congruence|auto].
  - apply (wf_tv _ _ W).
  - apply (wf_tu _ _ W).
  - intros z x e E. apply HS in E. apply (wf_el _ _ W z). tauto.
  - intros z x E. apply HS in E. apply (wf_nd _ _ W z). tauto.
  - intros z z' x x' e E E'. apply HS in E. apply HS in E'. apply (wf_dj _ _ W); tauto.
  - intros z t k p E. apply HS in E. destruct E as [E _]. destruct (wf_kp _ _ W _ _ _ _ E) as [y [Ey Ky]].
    exists y. split; auto. apply HS'; auto. intros ->. apply (Nk _ _ _ E).
  - intros z t k p E. apply HS in E. eapply (wf_px _ _ W). apply E.
  - intros z Hz. destruct (wf_pn _ _ W _ Hz) as [y Ey]. exists y. apply HS'; auto. congruence.
Qed.

Lemma kill_sto_eq st s x : l_sto st s = Some x ->
  kill_sto st s = fold_left kill_obj (elems x) (set_stos st (upd (l_sto st) s None)).
Proof. unfold kill_sto. now intros ->. Qed.

Lemma wf_kill_sto h st s : wf h st -> owned st s = false -> wf h (kill_sto st s).
Proof.
  intros W Ho. destruct (l_sto st s) as [x|] eqn:E.
  - rewrite (kill_sto_eq _ _ _ E). apply wf_kills; [now apply wf_drop_sto|].
    intros a Ha [z [y [Ez Hy]]]. cbn in Ez. unfold upd in Ez. destruct (Nat.eqb_spec z s); try discriminate.
    apply n. eapply (wf_dj _ _ W); eauto.
  - unfold kill_sto. now rewrite E.
Qed.

Lemma kill_sto_obj st s x b : l_sto st s = Some x ->
  l_obj (kill_sto st s) b = if mem b (elems x) then None else l_obj st b.
Proof. intro E. now rewrite (kill_sto_eq _ _ _ E), kills_obj. Qed.
Lemma kill_sto_sto st s z x : l_sto st s = Some x ->
  l_sto (kill_sto st s) z = if Nat.eqb z s then None else l_sto st z.
Proof.
  intro E. rewrite (kill_sto_eq _ _ _ E).
  destruct (kills_rest (elems x) (set_stos st (upd (l_sto st) s None))) as [_ [-> _]]. reflexivity.
Qed.
Lemma kill_sto_rest st s : l_no (kill_sto st s) = l_no st /\ l_ns (kill_sto st s) = l_ns st /\
  l_nt (kill_sto st s) = l_nt st /\ l_pins (kill_sto st s) = l_pins st /\
  l_coins (kill_sto st s) = l_coins st.
Proof.
  unfold kill_sto. destruct (l_sto st s) as [x|]; auto 10.
  kr (elems x) (set_stos st (upd (l_sto st) s None)). auto 10.
Qed.

(** ** Collecting *)

(** Nothing but deaths. *)
Record shrinks (st st' : lst) : Prop := {
  sh_obj : forall a, l_obj st' a = None \/ l_obj st' a = l_obj st a;
  sh_sto : forall s, l_sto st' s = None \/ l_sto st' s = l_sto st s;
  sh_no : l_no st' = l_no st;
  sh_ns : l_ns st' = l_ns st;
  sh_nt : l_nt st' = l_nt st;
  sh_pins : l_pins st' = l_pins st;
  sh_coins : l_coins st' = l_coins st;
  sh_elem : forall a o, l_obj st a = Some o -> l_obj st' a = None -> elem_of st a
}.
Lemma shrinks_refl st : shrinks st st.
Proof. constructor; auto. intros a o E1 E2. congruence. Qed.
Lemma shrinks_elem st st' a : shrinks st st' -> elem_of st' a -> elem_of st a.
Proof.
  intros H [s [x [E Hi]]]. exists s, x. split; auto. destruct (sh_sto _ _ H s); congruence.
Qed.
Lemma shrinks_trans a b c : shrinks a b -> shrinks b c -> shrinks a c.
Proof.
  intros H1 H2. constructor; try (destruct H1, H2; congruence).
  - intro x. destruct (sh_obj _ _ H1 x), (sh_obj _ _ H2 x); solve [left; congruence | right; congruence].
  - intro x. destruct (sh_sto _ _ H1 x), (sh_sto _ _ H2 x); solve [left; congruence | right; congruence].
  - intros x o E1 E2. destruct (sh_obj _ _ H1 x) as [N|N].
    + eapply sh_elem; eauto.
    + eapply shrinks_elem; [exact H1|]. eapply sh_elem; [exact H2| |exact E2]. rewrite N. exact E1.
Qed.
Lemma shrinks_kill_sto st s x : l_sto st s = Some x -> shrinks st (kill_sto st s).
Proof.
  intro E. destruct (kill_sto_rest st s) as [H1 [H2 [H3 [H4 H5]]]]. constructor; auto.
  - intro a. rewrite (kill_sto_obj _ _ _ _ E). destruct (mem a (elems x)); auto.
  - intro z. rewrite (kill_sto_sto _ _ _ _ E). destruct (Nat.eqb z s); auto.
  - intros a o E1 E2. rewrite (kill_sto_obj _ _ _ _ E) in E2.
    destruct (mem a (elems x)) eqn:Em; [|congruence]. apply mem_In in Em. exists s, x. auto.
Qed.

Lemma gc_wf n h st : wf h st -> wf h (gc n st).
Proof.
  revert st. induction n as [|n IH]; intros st W; cbn; auto.
  destruct (garbage st) as [s|] eqn:E; auto. apply garbage_some in E. destruct E as [_ [E _]].
  apply IH. now apply wf_kill_sto.
Qed.
Lemma gc_shrinks n st : shrinks st (gc n st).
Proof.
  revert st. induction n as [|n IH]; intro st; cbn; [apply shrinks_refl|].
  destruct (garbage st) as [s|] eqn:E; [|apply shrinks_refl]. apply garbage_some in E.
  destruct E as [[x Ex] _]. eapply shrinks_trans; [eapply shrinks_kill_sto; eauto|apply IH].
Qed.

(** Enough rounds. *)
Definition nlive (st : lst) : nat :=
  List.length (filter (fun s => match l_sto st s with Some _ => true | None => false end) (seq 0 (l_ns st))).
Lemma filter_le {A} (f g : A -> bool) l : (forall x, In x l -> f x = true -> g x = true) ->
  List.length (filter f l) <= List.length (filter g l).
Proof.
  induction l as [|a l IH]; cbn; intro H; auto.
  assert (IH' : List.length (filter f l) <= List.length (filter g l)) by (apply IH; intros; apply H; auto).
  destruct (f a) eqn:Ef.
  - rewrite (H a); auto. cbn. lia.
  - destruct (g a); cbn; lia.
Qed.
Lemma filter_lt {A} (f g : A -> bool) l y : (forall x, In x l -> f x = true -> g x = true) ->
  In y l -> f y = false -> g y = true -> List.length (filter f l) < List.length (filter g l).
Proof.
  induction l as [|a l IH]; cbn; intros H Hi Hf Hg; [contradiction|]. destruct Hi as [->|Hi].
  - rewrite Hf, Hg. cbn. apply Nat.lt_succ_r. apply filter_le. intros; apply H; auto.
  - assert (List.length (filter f l) < List.length (filter g l)) by (apply IH; auto).
    destruct (f a) eqn:Ef.
    + rewrite (H a); auto. cbn. lia.
    + destruct (g a); cbn; lia.
Qed.
Lemma gc_tight_aux n h st : wf h st -> nlive st <= n -> tight (gc n st).
Proof.
  revert st. induction n as [|n IH]; intros st W Hn; cbn.
  - intros s x E. exfalso. unfold nlive in Hn.
    assert (Hi : In s (filter (fun s => match l_sto st s with Some _ => true | None => false end) (seq 0 (l_ns st)))).
    { apply filter_In. rewrite E. split; auto. apply in_seq. pose proof (wf_sb _ _ W _ _ E). lia. }
    destruct (filter _ _); [inversion Hi|cbn in Hn; lia].
  - destruct (garbage st) as [s|] eqn:E.
    + apply garbage_some in E. destruct E as [[x Ex] [Eo Hs]].
      apply IH; [now apply wf_kill_sto|]. unfold nlive in *.
      destruct (kill_sto_rest st s) as [_ [-> _]].
      match type of Hn with (List.length (filter ?g ?l) <= _) =>
        match goal with |- (List.length (filter ?f _) <= _) =>
          assert (List.length (filter f l) < List.length (filter g l)) end end; [|lia].
      apply filter_lt with (y := s).
      * intros z _. rewrite (kill_sto_sto _ _ _ _ Ex). destruct (Nat.eqb z s); auto. discriminate.
      * apply in_seq. lia.
      * rewrite (kill_sto_sto _ _ _ _ Ex), Nat.eqb_refl. auto.
      * now rewrite Ex.
    + eapply garbage_none; eauto.
Qed.
Lemma gc_tight h st : wf h st -> tight (gc (l_ns st) st).
Proof.
  intro W. eapply gc_tight_aux; [exact W|]. unfold nlive.
  pose proof (filter_le (fun s => match l_sto st s with Some _ => true | None => false end)
    (fun _ => true) (seq 0 (l_ns st)) (fun _ _ _ => eq_refl)) as H.
  assert (forall l : list nat, filter (fun _ => true) l = l) as F.
  { induction l; cbn; congruence. }
  rewrite F, seq_length in H. exact H.
Qed.
Lemma gc_id n st : tight st -> gc n st = st.
Proof. intro T. destruct n; cbn; auto. now rewrite (tight_garbage _ T). Qed.

Lemma acyc_shrinks rk st st' : shrinks st st' -> acyc rk st -> acyc rk st'.
Proof.
  intros H [A1 A2]. split.
  - intros T x e o S E He Eo Eh. destruct (sh_sto _ _ H T) as [N|N]; [congruence|].
    destruct (sh_obj _ _ H e) as [M|M]; [congruence|]. rewrite N in E. rewrite M in Eo. eapply A1; eauto.
  - intros z t S p T x Ez E Hi. destruct (sh_sto _ _ H T) as [N|N]; [congruence|].
    destruct (sh_sto _ _ H z) as [M|M]; [congruence|]. rewrite N in E. rewrite M in Ez. eapply A2; eauto.
Qed.

(** ** What survives a collection: a set of storages such that each has an owner that is itself
    safe. *)
Definition protected (st : lst) (C : nat -> Prop) : Prop :=
  forall s, C s -> (exists x, l_sto st s = Some x) /\
    ((exists b o, b < l_no st /\ l_obj st b = Some o /\ holds (o_c o) = Some s /\
        (forall T x, l_sto st T = Some x -> In b (elems x) -> C T)) \/
     (exists z t p, z < l_ns st /\ l_sto st z = Some (SProxy t (Some s) p) /\ C z) \/
     In s (l_pins st)).

Lemma protected_owned st C s : protected st C -> C s -> owned st s = true.
Proof.
  intros P Hs. apply P in Hs. destruct Hs as [_ [[b [o [H1 [H2 [H3 _]]]]]|[[z [t [p [H1 [H2 _]]]]]|H]]];
    apply owned_spec; eauto 10.
Qed.
Lemma protected_step st C s x : protected st C -> l_sto st s = Some x -> owned st s = false ->
  protected (kill_sto st s) C.
Proof.
  intros P Ex Ho. assert (Ns : ~ C s). { intro Hc. pose proof (protected_owned _ _ _ P Hc). congruence. }
  destruct (kill_sto_rest st s) as [K1 [K2 [K3 [K4 K5]]]].
  intros c Hc. assert (c <> s) by (intros ->; auto). destruct (P _ Hc) as [[y Ey] Hown]. split.
  - exists y. rewrite (kill_sto_sto _ _ _ _ Ex). apply Nat.eqb_neq in H. now rewrite H.
  - rewrite K1, K2, K4. destruct Hown as [[b [o [H1 [H2 [H3 H4]]]]]|[[z [t [p [H1 [H2 H3]]]]]|Hp]].
    + left. exists b, o. split; auto. split; [|split; auto].
      * rewrite (kill_sto_obj _ _ _ _ Ex). destruct (mem b (elems x)) eqn:Em; auto.
        apply mem_In in Em. exfalso. apply Ns. eapply H4; eauto.
      * intros T y' E Hi. rewrite (kill_sto_sto _ _ _ _ Ex) in E. destruct (Nat.eqb T s); try discriminate.
        eapply H4; eauto.
    + right; left. exists z, t, p. split; auto. split; auto. rewrite (kill_sto_sto _ _ _ _ Ex).
      destruct (Nat.eqb_spec z s); auto. subst. contradiction.
    + auto.
Qed.
Lemma gc_protect n st C : protected st C ->
  (forall s, C s -> l_sto (gc n st) s = l_sto st s) /\
  (forall b, (forall T x, l_sto st T = Some x -> In b (elems x) -> C T) -> l_obj (gc n st) b = l_obj st b).
Proof.
  revert st. induction n as [|n IH]; intros st P; cbn; auto.
  destruct (garbage st) as [s|] eqn:E; auto. apply garbage_some in E. destruct E as [[x Ex] [Eo _]].
  destruct (IH _ (protected_step _ _ _ _ P Ex Eo)) as [I1 I2].
  assert (Ns : ~ C s). { intro Hc. pose proof (protected_owned _ _ _ P Hc). congruence. }
  split.
  - intros c Hc. rewrite (I1 _ Hc), (kill_sto_sto _ _ _ _ Ex). destruct (Nat.eqb_spec c s); auto.
    subst; contradiction.
  - intros b Hb. rewrite I2.
    + rewrite (kill_sto_obj _ _ _ _ Ex). destruct (mem b (elems x)) eqn:Em; auto. apply mem_In in Em.
      exfalso. apply Ns. eauto.
    + intros T y E Hi. rewrite (kill_sto_sto _ _ _ _ Ex) in E. destruct (Nat.eqb T s); try discriminate. eauto.
Qed.
Lemma gc_root n st b : ~ elem_of st b -> l_obj (gc n st) b = l_obj st b.
Proof.
  intro H. assert (P : protected st (fun _ => False)). { intros s []. }
  apply (gc_protect n st _ P). intros T x E Hi. apply H. exists T, x. auto.
Qed.
Lemma gc_pinned n h st s : wf h st -> In s (l_pins st) -> l_sto (gc n st) s = l_sto st s.
Proof.
  intros W H. assert (P : protected st (fun z => z = s)).
  { intros z ->. destruct (wf_pn _ _ W _ H) as [y E]. split; eauto. }
  apply (gc_protect n st _ P). auto.
Qed.

Definition is_proxy_sto (x : sto) : Prop := match x with SProxy _ _ _ => True | _ => False end.

(** Storages of rank [r] and more, and the storages of proxies, survive if all of them are
    owned. *)
Definition high (rk : nat -> Z) (r : Z) (st : lst) (s : nat) : Prop :=
  exists x, l_sto st s = Some x /\ ((r <= rk s)%Z \/ is_proxy_sto x).
Lemma gc_high n h rk r st : wf h st -> acyc rk st ->
  (forall s, high rk r st s -> owned st s = true) ->
  (forall s, high rk r st s -> l_sto (gc n st) s = l_sto st s) /\
  (forall b, (forall T x, l_sto st T = Some x -> In b (elems x) -> high rk r st T) ->
     l_obj (gc n st) b = l_obj st b).
Proof.
  intros W [A1 A2] HO. apply gc_protect. intros s Hs. pose proof (HO _ Hs) as O.
  destruct Hs as [x [Ex Hx]]. split; [eauto|]. apply owned_spec in O.
  destruct O as [[b [o [H1 [H2 H3]]]]|[[z [t [p [H1 H2]]]]|H]]; auto.
  - left. exists b, o. repeat (split; auto). intros T y Ey Hb. exists y. split; auto. left.
    destruct Hx as [Hx|Hx]; [pose proof (A1 _ _ _ _ _ Ey Hb H2 H3); lia|].
    (* the holder of a proxy storage is a proxy, which is in no storage *)
    exfalso. destruct (wf_el _ _ W _ _ _ Ey Hb) as [o' [Eo' Er]]. rewrite H2 in Eo'. injection Eo' as <-.
    pose proof (wf_ct _ _ W _ _ H2) as C. unfold cvalid in C. destruct (o_c o); cbn in H3; try discriminate;
      injection H3 as ->; try (destruct C as [? C]; rewrite Ex in C; injection C as ->; exact Hx).
  - right; left. exists z, t, p. split; auto. split; auto. exists (SProxy t (Some s) p). split; auto.
    right; exact I.
Qed.

(** ** Single writes *)

Definition ccond (h : option nat) (st : lst) (a : nat) (o : obj) : Prop :=
  match o_c o with
  | KNone _ => h = Some a
  | KRef t => linked st o t
  | KProxy s => exists t keep p, l_sto st s = Some (SProxy t keep p) /\ linked st o t
  | c => cvalid st c
  end.
Lemma wf_ct' h st a o : wf h st -> l_obj st a = Some o -> ccond h st a o.
Proof. intros W E. exact (wf_ct _ _ W _ _ E). Qed.

Lemma wf_set_obj h h' st a o o' : wf h st -> l_obj st a = Some o ->
  (forall b, b <> a -> h = Some b -> h' = Some b) ->
  ccond h' (set_objs st (upd (l_obj st) a (Some o'))) a o' ->
  (forall k, is_ref (o_c o) = false -> o_tok o = Some k -> is_ref (o_c o') = false /\ o_tok o' = Some k) ->
  (elem_of st a -> is_ref (o_c o') = false) ->
  (forall k, o_tok o' = Some k -> k < l_nt st) ->
  (forall k, is_ref (o_c o') = false -> o_tok o' = Some k ->
     l_tok st k = true /\
     forall b ob, b <> a -> l_obj st b = Some ob -> is_ref (o_c ob) = false -> o_tok ob <> Some k) ->
  wf h' (set_objs st (upd (l_obj st) a (Some o'))).
Proof.
  intros W Ea Hh Hc HA HE HT HB.
  set (st' := set_objs st (upd (l_obj st) a (Some o'))) in *.
  assert (HO : forall b ob, l_obj st' b = Some ob -> (b = a /\ ob = o') \/ (b <> a /\ l_obj st b = Some ob)).
  { intros b ob. cbn. unfold upd. destruct (Nat.eqb_spec b a); intro H; [left; split; congruence|right; auto]. }
  assert (HO' : forall b, b <> a -> l_obj st' b = l_obj st b).
  { intros b N. cbn. now apply upd_ne. }
  assert (LK : forall b ob t, l_obj st b = Some ob -> linked st ob t -> linked st' ob t).
  { intros b ob t Eb [Ht [k [Ek [Hv Hl]]]]. split; [exact Ht|]. exists k. split; auto. split.
    - cbn. intro V. unfold upd. destruct (Nat.eqb_spec t a); [eauto|auto].
    - intros ot Et. apply HO in Et. destruct Et as [[-> ->]|[N Et]]; auto.
      destruct (Hl _ Ea) as [H1 H2]. exact (HA _ H1 H2). }
  constructor.
  - intros b ob H. apply HO in H. destruct H as [[-> ->]|[N H]]; cbn; eapply wf_ob; eauto.
  - cbn. apply (wf_sb _ _ W).
  - intros b ob k H Hk. apply HO in H. destruct H as [[-> ->]|[N H]]; cbn; auto. eapply (wf_tb _ _ W); eauto.
  - intros b ob H. apply HO in H. destruct H as [[-> ->]|[N H]]; [exact Hc|].
    pose proof (wf_ct _ _ W _ _ H) as C. unfold cvalid in *. destruct (o_c ob); cbn; auto.
    + eauto.
    + destruct C as [t [kp [p [E Lk]]]]. exists t, kp, p. split; eauto.
  - intros b ob k H Hr Hk. apply HO in H. cbn. destruct H as [[-> ->]|[N H]].
    + apply HB; auto.
    + eapply (wf_tv _ _ W); eauto.
  - intros b c ob oc k Hb Hc' Rb Rc Kb Kc. apply HO in Hb. apply HO in Hc'.
    destruct Hb as [[-> ->]|[Nb Hb]]; destruct Hc' as [[-> ->]|[Nc Hc']]; auto.
    + exfalso. destruct (HB _ Rb Kb) as [_ X]. apply (X _ _ Nc Hc'); auto.
    + exfalso. destruct (HB _ Rc Kc) as [_ X]. apply (X _ _ Nb Hb); auto.
    + eapply (wf_tu _ _ W); eauto.
  - intros s x e E He. destruct (Nat.eq_dec e a) as [->|N].
    + exists o'. split; [cbn; apply upd_eq|]. apply HE. exists s, x. auto.
    + rewrite HO' by auto. eapply (wf_el _ _ W); eauto.
  - cbn. apply (wf_nd _ _ W).
  - cbn. apply (wf_dj _ _ W).
  - cbn. apply (wf_kp _ _ W).
  - cbn. apply (wf_px _ _ W).
  - cbn. apply (wf_pn _ _ W).
Qed.

Lemma elem_nonref h st a o : wf h st -> elem_of st a -> l_obj st a = Some o -> is_ref (o_c o) = false.
Proof. intros W [s [x [E Hi]]] Ea. destruct (wf_el _ _ W _ _ _ E Hi) as [o' [E' R]]. congruence. Qed.

(** Another content of the same sort. *)
Lemma wf_set_content h h' st a o c : wf h st -> l_obj st a = Some o -> (h = None \/ h = Some a) ->
  is_ref c = is_ref (o_c o) ->
  (match c with KNone _ => h' = Some a | KRef _ | KProxy _ => False | c => cvalid st c end) ->
  wf h' (set_objs st (upd (l_obj st) a (Some (Obj c (o_tok o))))).
Proof.
  intros W Ea Hh Hr Hc. eapply (wf_set_obj h _ st a o); [exact W|exact Ea|intros b Nb Hb; destruct Hh; congruence|..]; cbn.
  - unfold ccond. cbn. destruct c; auto; contradiction.
  - intros k R K. rewrite Hr. auto.
  - intro He. rewrite Hr. eapply elem_nonref; eauto.
  - intros k K. eapply (wf_tb _ _ W); eauto.
  - intros k R K. rewrite Hr in R. split; [eapply (wf_tv _ _ W); eauto|].
    intros b ob N Eb Rb Kb. apply N. eapply (wf_tu _ _ W); eauto.
Qed.

(** A reference. *)
Lemma wf_set_ref h st a o t ot k : wf h st -> l_obj st a = Some o -> (h = None \/ h = Some a) ->
  (is_ref (o_c o) = true \/ o_tok o = None) -> ~ elem_of st a -> a <> t ->
  l_obj st t = Some ot -> is_ref (o_c ot) = false -> o_tok ot = Some k ->
  wf None (set_objs st (upd (l_obj st) a (Some (Obj (KRef t) (Some k))))).
Proof.
  intros W Ea Hh Ho Hn Nat_ Et Rt Kt. eapply (wf_set_obj h _ st a o); [exact W|exact Ea|intros b Nb Hb; destruct Hh; congruence|..]; cbn; try discriminate.
  - unfold ccond. cbn. split; [exact (wf_ob _ _ W _ _ Et)|]. exists k. split; auto. split.
    + intros _. exists ot. cbn. rewrite upd_ne; auto.
    + cbn. rewrite upd_ne by auto. intros ot' E. rewrite Et in E. injection E as <-. auto.
  - intros j R K. destruct Ho; congruence.
  - tauto.
  - intros j E. injection E as <-. eapply (wf_tb _ _ W); eauto.
Qed.
Lemma wf_set_proxy h st a o t ot k s kp p : wf h st -> l_obj st a = Some o -> (h = None \/ h = Some a) ->
  (is_ref (o_c o) = true \/ o_tok o = None) -> ~ elem_of st a -> a <> t ->
  l_obj st t = Some ot -> is_ref (o_c ot) = false -> o_tok ot = Some k ->
  l_sto st s = Some (SProxy t kp p) ->
  wf None (set_objs st (upd (l_obj st) a (Some (Obj (KProxy s) (Some k))))).
Proof.
  intros W Ea Hh Ho Hn Nat_ Et Rt Kt Es. eapply (wf_set_obj h _ st a o); [exact W|exact Ea|intros b Nb Hb; destruct Hh; congruence|..]; cbn; try discriminate.
  - unfold ccond. cbn. exists t, kp, p. split; auto. split; [exact (wf_ob _ _ W _ _ Et)|]. exists k. split; auto. split.
    + intros _. exists ot. cbn. rewrite upd_ne; auto.
    + cbn. rewrite upd_ne by auto. intros ot' E. rewrite Et in E. injection E as <-. auto.
  - intros j R K. destruct Ho; congruence.
  - tauto.
  - intros j E. injection E as <-. eapply (wf_tb _ _ W); eauto.
Qed.

Definition add_obj (st : lst) (c : content) : lst :=
  LState (upd (l_obj st) (l_no st) (Some (Obj c None))) (S (l_no st)) (l_sto st) (l_ns st)
         (l_tok st) (l_nt st) (l_pins st) (l_coins st).
Definition add_sto (st : lst) (x : sto) : lst :=
  LState (l_obj st) (l_no st) (upd (l_sto st) (l_ns st) (Some x)) (S (l_ns st))
         (l_tok st) (l_nt st) (l_pins st) (l_coins st).
Definition add_tok (st : lst) : lst :=
  LState (l_obj st) (l_no st) (l_sto st) (l_ns st)
         (upd (l_tok st) (l_nt st) true) (S (l_nt st)) (l_pins st) (l_coins st).

Lemma obj_fresh h st : wf h st -> l_obj st (l_no st) = None.
Proof. intro W. destruct (l_obj st (l_no st)) eqn:E; auto. pose proof (wf_ob _ _ W _ _ E). lia. Qed.
Lemma sto_fresh h st : wf h st -> l_sto st (l_ns st) = None.
Proof. intro W. destruct (l_sto st (l_ns st)) eqn:E; auto. pose proof (wf_sb _ _ W _ _ E). lia. Qed.
Lemma elem_bound h st a : wf h st -> elem_of st a -> a < l_no st.
Proof. intros W [s [x [E Hi]]]. destruct (wf_el _ _ W _ _ _ E Hi) as [o [Eo _]]. eapply wf_ob; eauto. Qed.

Lemma wf_add_obj h st c : wf h st -> cvalid st c -> wf h (add_obj st c).
Proof.
  intros W Hc. pose proof (obj_fresh _ _ W) as F.
  assert (HO : forall b ob, l_obj (add_obj st c) b = Some ob -> (b = l_no st /\ ob = Obj c None) \/ (b < l_no st /\ l_obj st b = Some ob)).
  { intros b ob. cbn. unfold upd. destruct (Nat.eqb_spec b (l_no st)); intro H; [left; split; congruence|right].
    split; auto. eapply wf_ob; eauto. }
  assert (LK : forall ob t, linked st ob t -> linked (add_obj st c) ob t).
  { intros ob t [Ht [k [Ek [Hv Hl]]]]. split; [cbn; lia|]. exists k. split; auto. cbn.
    rewrite upd_ne by lia. auto. }
  constructor.
  - intros b ob H. apply HO in H. cbn. lia.
  - cbn. apply (wf_sb _ _ W).
  - intros b ob k H Hk. apply HO in H. destruct H as [[-> ->]|[N H]]; [discriminate|]. cbn. eapply (wf_tb _ _ W); eauto.
  - intros b ob H. apply HO in H. destruct H as [[-> ->]|[N H]].
    + cbn [o_c]. destruct c; cbn in Hc |- *; auto; contradiction.
    + pose proof (wf_ct _ _ W _ _ H) as C. unfold cvalid in *. destruct (o_c ob); cbn; auto.
      destruct C as [t [kp [p [E Lk]]]]. exists t, kp, p. split; eauto.
  - intros b ob k H Hr Hk. apply HO in H. destruct H as [[-> ->]|[N H]]; [discriminate|]. cbn. eapply (wf_tv _ _ W); eauto.
  - intros b d ob od k Hb Hd Rb Rd Kb Kd. apply HO in Hb. apply HO in Hd.
    destruct Hb as [[-> ->]|[Nb Hb]]; [discriminate|]. destruct Hd as [[-> ->]|[Nd Hd]]; [discriminate|].
    eapply (wf_tu _ _ W); eauto.
  - intros s x e E He. destruct (wf_el _ _ W _ _ _ E He) as [o [Eo R]]. exists o. split; auto. cbn.
    rewrite upd_ne; auto. pose proof (wf_ob _ _ W _ _ Eo). lia.
  - cbn. apply (wf_nd _ _ W).
  - cbn. apply (wf_dj _ _ W).
  - cbn. apply (wf_kp _ _ W).
  - cbn. intros z t k p E. pose proof (wf_px _ _ W _ _ _ _ E). lia.
  - cbn. apply (wf_pn _ _ W).
Qed.

Lemma wf_add_sto h st x : wf h st -> elems x = [] ->
  (forall t k p, x = SProxy t k p -> t < l_no st /\ forall s, k = Some s -> exists y, l_sto st s = Some y /\ kind y <> 3) ->
  wf h (add_sto st x).
Proof.
  intros W He Hp. pose proof (sto_fresh _ _ W) as F.
  assert (HS : forall s y, l_sto (add_sto st x) s = Some y -> (s = l_ns st /\ y = x) \/ (s < l_ns st /\ l_sto st s = Some y)).
  { intros s y. cbn. unfold upd. destruct (Nat.eqb_spec s (l_ns st)); intro H; [left; split; congruence|right].
    split; auto. eapply wf_sb; eauto. }
  assert (HS' : forall s y, l_sto st s = Some y -> l_sto (add_sto st x) s = Some y).
  { intros s y E. cbn. rewrite upd_ne; auto. pose proof (wf_sb _ _ W _ _ E). lia. }
  constructor.
  - cbn. apply (wf_ob _ _ W).
  - intros s y E. apply HS in E. cbn. lia.
  - cbn. apply (wf_tb _ _ W).
  - intros a o E. pose proof (wf_ct _ _ W _ _ E) as C. unfold cvalid in *. destruct (o_c o); auto;
      try (destruct C as [y Ey]; exists y; now apply HS').
    destruct C as [t [kp [p [Ey Lk]]]]. exists t, kp, p. split; auto.
  - cbn. apply (wf_tv _ _ W).
  - cbn. apply (wf_tu _ _ W).
  - intros s y e E Hi. apply HS in E. destruct E as [[-> ->]|[N E]]; [rewrite He in Hi; inversion Hi|].
    cbn. eapply (wf_el _ _ W); eauto.
  - intros s y E. apply HS in E. destruct E as [[-> ->]|[N E]]; [rewrite He; constructor|]. eapply (wf_nd _ _ W); eauto.
  - intros s s' y y' e E E' Hi Hi'. apply HS in E. apply HS in E'.
    destruct E as [[-> ->]|[N E]]; [rewrite He in Hi; inversion Hi|].
    destruct E' as [[-> ->]|[N' E']]; [rewrite He in Hi'; inversion Hi'|]. eapply (wf_dj _ _ W s s'); eauto.
  - intros z t k p E. apply HS in E. destruct E as [[-> E]|[N E]].
    + destruct (Hp t (Some k) p (eq_sym E)) as [_ X]. destruct (X _ eq_refl) as [y [Ey Ky]]. exists y. auto.
    + destruct (wf_kp _ _ W _ _ _ _ E) as [y [Ey Ky]]. exists y. auto.
  - intros z t k p E. apply HS in E. destruct E as [[-> E]|[N E]].
    + apply (Hp t k p (eq_sym E)).
    + cbn. eapply (wf_px _ _ W); eauto.
  - intros s Hs. cbn in Hs. destruct (wf_pn _ _ W _ Hs) as [y Ey]. exists y. auto.
Qed.

Lemma wf_add_tok h st : wf h st -> wf h (add_tok st).
Proof.
  intro W.
  assert (LK : forall a ob t, l_obj st a = Some ob -> linked st ob t -> linked (add_tok st) ob t).
  { intros a ob t Ea [Ht [k [Ek [Hv Hl]]]]. split; [exact Ht|]. exists k. split; auto. cbn.
    pose proof (wf_tb _ _ W _ _ _ Ea Ek). rewrite upd_ne by lia. auto. }
  constructor.
  - cbn. apply (wf_ob _ _ W).
  - cbn. apply (wf_sb _ _ W).
  - cbn. intros a o k E K. pose proof (wf_tb _ _ W _ _ _ E K). lia.
  - intros a o E. pose proof (wf_ct _ _ W _ _ E) as C. unfold cvalid in *. destruct (o_c o); auto; [eauto|].
    destruct C as [t [kp [p [Ey Lk]]]]. exists t, kp, p. split; eauto.
  - intros a o k E R K. cbn. unfold upd. destruct (Nat.eqb k (l_nt st)); auto. eapply (wf_tv _ _ W); eauto.
  - cbn. apply (wf_tu _ _ W).
  - cbn. apply (wf_el _ _ W).
  - cbn. apply (wf_nd _ _ W).
  - cbn. apply (wf_dj _ _ W).
  - cbn. apply (wf_kp _ _ W).
  - cbn. apply (wf_px _ _ W).
  - cbn. apply (wf_pn _ _ W).
Qed.

Lemma wf_set_sto h st s x x' : wf h st -> l_sto st s = Some x -> kind x' = kind x -> kind x <> 3 ->
  NoDup (elems x') ->
  (forall e, In e (elems x') -> (exists o, l_obj st e = Some o /\ is_ref (o_c o) = false) /\
     (In e (elems x) \/ ~ elem_of st e)) ->
  wf h (set_stos st (upd (l_sto st) s (Some x'))).
Proof.
  intros W Es Hk Hk3 Hnd Hel.
  set (st' := set_stos st (upd (l_sto st) s (Some x'))).
  assert (HS : forall z y, l_sto st' z = Some y -> (z = s /\ y = x') \/ (z <> s /\ l_sto st z = Some y)).
  { intros z y. cbn. unfold upd. destruct (Nat.eqb_spec z s); intro H; [left; split; congruence|right; auto]. }
  assert (HS' : forall z y, l_sto st z = Some y -> exists y', l_sto st' z = Some y' /\ kind y' = kind y /\ (kind y = 3 -> y' = y)).
  { intros z y E. cbn. unfold upd. destruct (Nat.eqb_spec z s).
    - subst. rewrite Es in E. injection E as <-. exists x'. split; auto. split; auto. intro; contradiction.
    - exists y. auto. }
  constructor.
  - cbn. apply (wf_ob _ _ W).
  - intros z y E. apply HS in E. cbn. destruct E as [[-> ->]|[N E]]; eapply wf_sb; eauto.
  - cbn. apply (wf_tb _ _ W).
  - intros a o E. pose proof (wf_ct _ _ W _ _ E) as C. unfold cvalid in *. destruct (o_c o); auto.
    + destruct C as [y Ey]. apply HS' in Ey. destruct Ey as [[]  [E' [K _]]]; try discriminate; eauto.
    + destruct C as [y Ey]. apply HS' in Ey. destruct Ey as [[]  [E' [K _]]]; try discriminate; eauto.
    + destruct C as [y Ey]. apply HS' in Ey. destruct Ey as [[]  [E' [K _]]]; try discriminate; eauto.
    + destruct C as [t [kp [p [Ey Lk]]]]. apply HS' in Ey. destruct Ey as [y' [E' [_ X]]].
      rewrite (X eq_refl) in E'. exists t, kp, p. split; auto.
  - cbn. apply (wf_tv _ _ W).
  - cbn. apply (wf_tu _ _ W).
  - intros z y e E Hi. cbn. apply HS in E. destruct E as [[-> ->]|[N E]]; [apply Hel; auto|].
    eapply (wf_el _ _ W); eauto.
  - intros z y E. apply HS in E. destruct E as [[-> ->]|[N E]]; auto. eapply (wf_nd _ _ W); eauto.
  - assert (X : forall z y e, z <> s -> l_sto st z = Some y -> In e (elems y) -> In e (elems x') -> False).
    { intros z y e N E Hi Hi'. destruct (Hel _ Hi') as [_ [H|H]].
      - apply N. eapply (wf_dj _ _ W z s); eauto.
      - apply H. exists z, y. auto. }
    intros z z' y y' e E E' Hi Hi'. apply HS in E. apply HS in E'.
    destruct E as [[-> ->]|[N E]]; destruct E' as [[-> ->]|[N' E']]; auto.
    + exfalso; eauto. + exfalso; eauto. + eapply (wf_dj _ _ W z z'); eauto.
  - intros z t k p E. apply HS in E. destruct E as [[-> <-]|[N E]].
    + cbn in Hk. congruence.
    + destruct (wf_kp _ _ W _ _ _ _ E) as [y [Ey Ky]]. apply HS' in Ey. destruct Ey as [y' [E' [K' _]]].
      exists y'. split; auto. congruence.
  - intros z t k p E. apply HS in E. destruct E as [[-> <-]|[N E]].
    + cbn in Hk. congruence.
    + cbn. eapply (wf_px _ _ W); eauto.
  - intros z Hz. cbn in Hz. destruct (wf_pn _ _ W _ Hz) as [y Ey]. apply HS' in Ey. destruct Ey as [y' [E' _]]. eauto.
Qed.

Lemma wf_set_pins h st p : wf h st -> (forall s, In s p -> exists y, l_sto st s = Some y) -> wf h (set_pins st p).
Proof. intros W Hp. destruct W. constructor; cbn; auto. Qed.
Lemma wf_set_coins h st p : wf h st -> wf h (set_coins st p).
Proof. intros W. destruct W. constructor; cbn; auto. Qed.
