(** What the operations on paths should do to a document, stated on trees. *)
From Verif Require Import Base Float Value Path.
Open Scope N_scope.

(** The element of a tree under a key or index, and the subtree at a path. *)
Definition vchild (v : value) (e : pelem) : option value :=
  match v, e with
  | VMap m, PKey k => mget k m
  | VList l, PIdx i => nth_error l (N.to_nat i)
  | _, _ => None
  end.
Fixpoint vat (v : value) (p : path) : option value :=
  match p with
  | [] => Some v
  | e :: q => match vchild v e with Some w => vat w q | None => None end
  end.

(** Replacing position [i]; a list that is too short is filled up with nulls. *)
Fixpoint vput (l : list value) (i : nat) (x : value) : list value :=
  match l, i with
  | [], O => [x]
  | [], S j => VNull :: vput [] j x
  | _ :: t, O => x :: t
  | y :: t, S j => y :: vput t j x
  end.
(** Setting one element: null becomes a container; anything else has to be one of the right kind. *)
Definition vset_elem (v : value) (e : pelem) (x : value) : option value :=
  match e, v with
  | PKey k, VNull => Some (VMap [(k, x)])
  | PKey k, VMap m => Some (VMap (mset k x m))
  | PIdx i, VNull => Some (VList (vput [] (N.to_nat i) x))
  | PIdx i, VList l => Some (VList (vput l (N.to_nat i) x))
  | _, _ => None
  end.
(** Setting the subtree at a path; what is missing on the way is created. *)
Fixpoint vset (v : value) (p : path) (x : value) : option value :=
  match p with
  | [] => Some x
  | e :: q =>
      let w := match vchild v e with Some w => w | None => VNull end in
      match vset w q x with Some w' => vset_elem v e w' | None => None end
  end.

Lemma nth_vput l i x j : nth_error (vput l i x) j =
  if Nat.eqb j i then Some x
  else match nth_error l j with
       | Some y => Some y
       | None => if Nat.ltb j i then Some VNull else None
       end.
Proof.
  revert i j; induction l as [|y l IH]; intros i; induction i as [|i IHi]; intros [|j]; cbn; auto.
  - destruct j; reflexivity.
  - rewrite IHi. destruct (Nat.eqb j i); auto. destruct j; reflexivity.
  - destruct (nth_error l j) eqn:E; auto.
  - rewrite IH. reflexivity.
Qed.

Lemma vput_within l i x : (i < List.length l)%nat -> List.length (vput l i x) = List.length l.
Proof. revert i; induction l as [|y l IH]; intros [|i] H; cbn in *; try lia. rewrite IH; lia. Qed.
Lemma vput_len l i x : List.length (vput l i x) = Nat.max (List.length l) (S i).
Proof.
  revert i; induction l as [|y l IH]; intros i.
  - cbn [List.length]. rewrite Nat.max_0_l. induction i; cbn; auto. 
  - destruct i; cbn; [rewrite Nat.max_0_r; reflexivity|]. rewrite IH. reflexivity.
Qed.

(** Maps in order at every level, as std::map keeps them. *)
Fixpoint vsorted (v : value) : Prop :=
  match v with
  | VList l => (fix go l := match l with [] => True | x :: t => vsorted x /\ go t end) l
  | VMap m => msorted m /\ (fix go m := match m with [] => True | kv :: t => vsorted (snd kv) /\ go t end) m
  | _ => True
  end.
Lemma vsorted_list l : vsorted (VList l) <-> Forall vsorted l.
Proof.
  cbn [vsorted]. induction l as [|x l IH]; split; intros H; auto.
  - destruct H. constructor; auto. apply IH; auto.
  - inversion_clear H. split; auto. apply IH; auto.
Qed.
Lemma vsorted_map m : vsorted (VMap m) <-> msorted m /\ Forall (fun kv => vsorted (snd kv)) m.
Proof.
  cbn [vsorted].
  assert (K : (fix go m := match m with [] => True | kv :: t => vsorted (snd kv) /\ go t end) m <-> Forall (fun kv => vsorted (snd kv)) m).
  { induction m as [|x l IH]; split; intros H; auto.
    - destruct H. constructor; auto. apply IH; auto.
    - inversion_clear H. split; auto. apply IH; auto. }
  rewrite K. reflexivity.
Qed.
Lemma vsorted_child v e w : vsorted v -> vchild v e = Some w -> vsorted w.
Proof.
  destruct v, e; cbn [vchild]; try discriminate.
  - rewrite vsorted_list, Forall_forall. intros H E. apply H, (nth_error_In _ _ E).
  - rewrite vsorted_map, Forall_forall. intros [_ H] E. apply mget_In in E. apply (H _ E).
Qed.

Lemma vset_elem_child v e x v' f : vsorted v -> vset_elem v e x = Some v' ->
  (f = e -> vchild v' f = Some x) /\
  (f <> e -> vchild v' f = vchild v f \/
     vchild v f = None /\ vchild v' f = Some VNull /\ exists i j, f = PIdx i /\ e = PIdx j /\ i < j).
Proof.
  intros K E. destruct e as [k|i], v; try discriminate; injection E as <-; (split; [intros ->|intros N]); cbn.
  - rewrite beqb_refl. reflexivity.
  - destruct f as [k'|j]; cbn; auto. destruct (beqb k' k) eqn:B; auto. apply beqb_eq in B. congruence.
  - rewrite mget_mset, beqb_refl; [reflexivity|apply K].
  - destruct f as [k'|j]; cbn; auto. rewrite mget_mset by apply K. destruct (beqb k' k) eqn:B; auto. apply beqb_eq in B. congruence.
  - rewrite nth_vput, Nat.eqb_refl. reflexivity.
  - destruct f as [k'|j]; auto. rewrite nth_vput. destruct (Nat.eqb_spec (N.to_nat j) (N.to_nat i)).
    { destruct N. f_equal. lia. }
    destruct (Nat.ltb_spec (N.to_nat j) (N.to_nat i)).
    + right. repeat split; auto. destruct (N.to_nat j); reflexivity. exists j, i. repeat split. lia.
    + left. destruct (N.to_nat j); reflexivity.
  - rewrite nth_vput, Nat.eqb_refl. reflexivity.
  - destruct f as [k'|j]; auto. rewrite nth_vput. destruct (Nat.eqb_spec (N.to_nat j) (N.to_nat i)).
    { destruct N. f_equal. lia. }
    destruct (nth_error l (N.to_nat j)) eqn:G; auto. destruct (Nat.ltb_spec (N.to_nat j) (N.to_nat i)); auto.
    right. repeat split; auto. exists j, i. repeat split. lia.
Qed.

(** Paths neither of which leads through the other. *)
Definition diverge (p q : path) : Prop :=
  exists r e f p' q', p = r ++ e :: p' /\ q = r ++ f :: q' /\ e <> f.
(** The list positions below one that is set. *)
Definition padding (p q : path) : Prop :=
  exists r i j p', p = r ++ PIdx j :: p' /\ q = r ++ [PIdx i] /\ i < j.

Lemma vset_sorted_null : vsorted VNull. Proof. exact I. Qed.
Lemma vchild_null e : vchild VNull e = None. Proof. destruct e; reflexivity. Qed.
Definition vnow (v : value) (e : pelem) : value := match vchild v e with Some w => w | None => VNull end.
Lemma vnow_sorted v e : vsorted v -> vsorted (vnow v e).
Proof. intros K. unfold vnow. destruct (vchild v e) eqn:E; [eapply vsorted_child; eauto|exact I]. Qed.

(** What was set is found where it was set. *)
Lemma vat_vset v p x v' q : vsorted v -> vset v p x = Some v' -> vat v' (p ++ q) = vat x q.
Proof.
  revert v v'; induction p as [|e p IH]; intros v v' K E; cbn [vset app vat] in *.
  - congruence.
  - fold (vnow v e) in E. destruct (vset (vnow v e) p x) as [w'|] eqn:G; [|discriminate].
    destruct (vset_elem_child v e w' v' e K E) as [A _]. rewrite (A eq_refl).
    apply (IH (vnow v e)); auto using vnow_sorted.
Qed.
Lemma vat_null q : vat VNull q = None \/ q = [].
Proof. destruct q as [|[|] q]; auto. Qed.
(** Everything that does not lie above or below stays, except that a list that was too short
    now has nulls. *)
Lemma vat_vset_other v p x v' q : vsorted v -> vset v p x = Some v' -> diverge p q ->
  vat v' q = vat v q \/ vat v q = None /\ vat v' q = Some VNull /\ padding p q.
Proof.
  intros K E (r & e & f & p' & q' & -> & -> & N). revert v v' K E; induction r as [|g r IH]; intros v v' K E; cbn [app vset vat] in *.
  - fold (vnow v e) in E. destruct (vset (vnow v e) p' x) as [w'|] eqn:G; [|discriminate].
    destruct (vset_elem_child v e w' v' f K E) as [_ A].
    destruct (A (fun H => N (eq_sym H))) as [->|(H1 & H2 & i & j & -> & -> & L)]; auto. rewrite H1, H2.
    destruct (vat_null q') as [->| ->]; auto. right. repeat split; auto. exists [], i, j, p'. auto.
  - fold (vnow v g) in E. destruct (vset (vnow v g) (r ++ e :: p') x) as [w'|] eqn:G; [|discriminate].
    destruct (vset_elem_child v g w' v' g K E) as [A _]. rewrite (A eq_refl).
    destruct (IH _ _ (vnow_sorted v g K) G) as [->|(H1 & H2 & H3)].
    + left. unfold vnow. destruct (vchild v g); auto. destruct (vat_null (r ++ f :: q')) as [->|H]; auto. destruct r; discriminate.
    + right. repeat split; auto.
      * unfold vnow in H1. destruct (vchild v g); auto.
      * destruct H3 as (r1 & i & j & p1 & -> & E2 & L). exists (g :: r1), i, j, p1. rewrite E2. auto.
Qed.
(** What lies above stays a container of its kind, or null has become one. *)
Definition kind_for (e : pelem) (v : value) : Prop :=
  match e with PKey _ => exists m, v = VMap m | PIdx _ => exists l, v = VList l end.
Lemma vset_elem_kind v e x v' : vset_elem v e x = Some v' -> (v = VNull \/ kind_for e v) /\ kind_for e v'.
Proof. destruct e, v; try discriminate; intros E; injection E as <-; cbn; eauto. Qed.
Lemma vat_vset_above v q e r x v' : vsorted v -> vset v (q ++ e :: r) x = Some v' ->
  (match vat v q with Some w => w = VNull \/ kind_for e w | None => True end) /\
  exists w', vat v' q = Some w' /\ kind_for e w'.
Proof.
  revert v v'; induction q as [|g q IH]; intros v v' K E; cbn [app vset vat] in *.
  - fold (vnow v e) in E. destruct (vset (vnow v e) r x) as [w'|]; [|discriminate]. apply vset_elem_kind in E. split; [|exists v']; tauto.
  - fold (vnow v g) in E. destruct (vset (vnow v g) (q ++ e :: r) x) as [w'|] eqn:G; [|discriminate].
    destruct (vset_elem_child v g w' v' g K E) as [A _]. rewrite (A eq_refl).
    destruct (IH _ _ (vnow_sorted v g K) G) as [B1 B2]. split; auto. unfold vnow in B1. destruct (vchild v g); auto.
Qed.
(** It fails exactly when the path leads through something that is no container, or one of the
    other kind. *)
Lemma vset_null p x : vset VNull p x <> None.
Proof. induction p as [|e p IH]; cbn [vset]; [discriminate|]. rewrite vchild_null. destruct (vset VNull p x); auto. destruct e; discriminate. Qed.
Lemma vset_fails v p x : vset v p x = None <->
  exists q e r w, p = q ++ e :: r /\ vat v q = Some w /\ w <> VNull /\ ~ kind_for e w.
Proof.
  revert v; induction p as [|e p IH]; intros v; cbn [vset].
  - split; [discriminate|]. intros ([|] & ? & ? & ? & ? & _); discriminate.
  - fold (vnow v e). split.
    + destruct (vset (vnow v e) p x) as [w'|] eqn:G; intros E.
      * exists [], e, p, v. split; auto. split; auto. split; [intros ->; destruct e; discriminate|].
        destruct e; intros [z ->]; discriminate.
      * unfold vnow in G. destruct (vchild v e) as [w|] eqn:C; [|destruct (vset_null _ _ G)].
        apply IH in G. destruct G as (q & f & r & w1 & -> & H). exists (e :: q), f, r, w1. split; auto. cbn. rewrite C. auto.
    + intros ([|g q] & f & r & w & E & A & N1 & N2); cbn in E; injection E as -> ->.
      * injection A as <-. destruct (vset (vnow v f) r x); auto. destruct f, v; cbn; auto; try (destruct N1; reflexivity); destruct N2; cbn; eauto.
      * cbn [vat] in A. unfold vnow. destruct (vchild v g) as [w1|] eqn:C; [|discriminate].
        destruct (IH w1) as [_ J]. rewrite J; auto. exists q, f, r, w. auto.
Qed.

(** ** Erasing *)

(** Erasing one element.  An entry of a list that is not the last one becomes null, so that the
    later ones keep their index. *)
Definition verase_elem (v : value) (e : pelem) : option value :=
  match e, v with
  | _, VNull => Some VNull
  | PKey k, VMap m => Some (VMap (mdel k m))
  | PIdx i, VList l =>
      Some (VList (if i + 1 <? N.of_nat (List.length l) then vput l (N.to_nat i) VNull
                   else if i <? N.of_nat (List.length l) then removelast l else l))
  | _, _ => None
  end.
(** Empty(); [None] for what has no size. *)
Definition vempty (v : value) : option bool :=
  match v with
  | VNull => Some true
  | VStr b => Some (match b with [] => true | _ => false end)
  | VList b => Some (match b with [] => true | _ => false end)
  | VMap b => Some (match b with [] => true | _ => false end)
  | _ => None
  end.
(** Erasing at a path, with removal of what is then empty on the way back up. *)
Fixpoint verase (v : value) (p : path) (rm : bool) : res value :=
  match p with
  | [] => Ok v
  | e :: q =>
      match q with
      | [] => match verase_elem v e with Some v' => Ok v' | None => Throw UnexpectedTypeError end
      | _ =>
          match vchild v e with
          | None => Ok v
          | Some w =>
              do w' <- verase w q rm;
              match vset_elem v e w' with
              | None => Throw UnexpectedTypeError
              | Some v1 =>
                  if rm then
                    match vempty w' with
                    | None => Throw InvalidOperationError
                    | Some true => match verase_elem v1 e with Some v' => Ok v' | None => Throw UnexpectedTypeError end
                    | Some false => Ok v1
                    end
                  else Ok v1
              end
          end
      end
  end.

Lemma nth_removelast {A} (l : list A) j : nth_error (removelast l) j =
  if Nat.eqb (S j) (List.length l) then None else nth_error l j.
Proof.
  revert j; induction l as [|x l IH]; intros j.
  - cbn. destruct j; reflexivity.
  - destruct l as [|y l].
    + cbn. destruct j as [|[|j]]; reflexivity.
    + cbn [removelast]. destruct j as [|j]; [reflexivity|]. cbn [nth_error]. rewrite IH. cbn [List.length]. reflexivity.
Qed.
Lemma removelast_length {A} (l : list A) : List.length (removelast l) = Nat.pred (List.length l).
Proof. induction l as [|x [|y l] IH]; cbn [removelast List.length] in *; auto. rewrite IH. reflexivity. Qed.

(** An entry of a list with others behind it. *)
Definition interior (v : value) (e : pelem) : Prop :=
  match e, v with PIdx i, VList l => i + 1 < N.of_nat (List.length l) | _, _ => False end.
Lemma verase_elem_child v e v' f : vsorted v -> verase_elem v e = Some v' ->
  (f <> e -> vchild v' f = vchild v f) /\
  (f = e -> vchild v' f = None \/ interior v e /\ vchild v' f = Some VNull).
Proof.
  intros K E. destruct e as [k|i], v; try discriminate; cbn [verase_elem] in E; injection E as <-; (split; [intros N|intros ->]); cbn [vchild]; auto.
  - destruct f as [k'|]; cbn; auto. rewrite mget_mdel by apply K. destruct (beqb k' k) eqn:B; auto. apply beqb_eq in B. congruence.
  - left. rewrite mget_mdel, beqb_refl by apply K. reflexivity.
  - destruct f as [|j]; auto. assert (N.to_nat j <> N.to_nat i) by (intros H; apply N; f_equal; lia).
    destruct (N.ltb_spec (i + 1) (N.of_nat (List.length l))).
    + rewrite nth_vput. destruct (Nat.eqb_spec (N.to_nat j) (N.to_nat i)); [congruence|]. destruct (nth_error l (N.to_nat j)) eqn:G; auto.
      destruct (Nat.ltb_spec (N.to_nat j) (N.to_nat i)); auto. apply nth_error_None in G. lia.
    + destruct (N.ltb_spec i (N.of_nat (List.length l))); auto. rewrite nth_removelast.
      destruct (Nat.eqb_spec (S (N.to_nat j)) (List.length l)); auto. lia.
  - destruct (N.ltb_spec (i + 1) (N.of_nat (List.length l))).
    + right. cbn. split; auto. rewrite nth_vput, Nat.eqb_refl. reflexivity.
    + left. destruct (N.ltb_spec i (N.of_nat (List.length l))).
      * rewrite nth_removelast. destruct (Nat.eqb_spec (S (N.to_nat i)) (List.length l)); auto. lia.
      * apply nth_error_None. lia.
Qed.
Lemma verase_elem_absent v e v' : vsorted v -> verase_elem v e = Some v' -> vchild v e = None -> v' = v.
Proof.
  intros K E. destruct e as [k|i], v; try discriminate; cbn [verase_elem vchild] in *; try congruence; injection E as <-; intros N.
  - f_equal. apply mdel_notin. apply mget_None_notin, N.
  - apply nth_error_None in N. destruct (N.ltb_spec (i + 1) (N.of_nat (List.length l))); [lia|].
    destruct (N.ltb_spec i (N.of_nat (List.length l))); [lia|]. reflexivity.
Qed.
Lemma vset_elem_sorted v e x v' : vsorted v -> vsorted x -> vset_elem v e x = Some v' -> vsorted v'.
Proof.
  intros K X E. destruct e as [k|i], v; try discriminate; injection E as <-.
  - cbn. repeat split; auto. intros ? [].
  - apply vsorted_map in K. apply vsorted_map. destruct K as [K1 K2]. split; [apply msorted_mset; auto|].
    rewrite Forall_forall in *. intros kv I. destruct kv as [k' y].
    destruct (bcmp k k') eqn:B; [apply bcmp_eq in B; subst k'| |].
    + assert (mget k (mset k x m) = Some y) by (apply In_mget; auto using msorted_mset).
      rewrite mget_mset, beqb_refl in H by auto. injection H as <-. exact X.
    + assert (mget k' (mset k x m) = Some y) by (apply In_mget; auto using msorted_mset).
      rewrite mget_mset in H by auto. destruct (beqb k' k) eqn:B2; [injection H as <-; exact X|]. apply mget_In in H. apply (K2 _ H).
    + assert (mget k' (mset k x m) = Some y) by (apply In_mget; auto using msorted_mset).
      rewrite mget_mset in H by auto. destruct (beqb k' k) eqn:B2; [injection H as <-; exact X|]. apply mget_In in H. apply (K2 _ H).
  - apply vsorted_list. apply Forall_forall. intros y I. apply In_nth_error in I. destruct I as [n I]. rewrite nth_vput in I.
    destruct (Nat.eqb n (N.to_nat i)); [injection I as <-; exact X|]. destruct n; cbn [nth_error] in I; match type of I with (if ?b then _ else _) = _ => destruct b end; try discriminate; injection I as <-; exact Logic.I.
  - apply vsorted_list in K. apply vsorted_list. rewrite Forall_forall in *. intros y I. apply In_nth_error in I. destruct I as [n I]. rewrite nth_vput in I.
    destruct (Nat.eqb n (N.to_nat i)); [injection I as <-; exact X|]. destruct (nth_error l n) eqn:G.
    + injection I as <-. apply K, (nth_error_In _ _ G).
    + match type of I with (if ?b then _ else _) = _ => destruct b end; try discriminate; injection I as <-; exact Logic.I.
Qed.
Lemma vset_elem_same v e w : vsorted v -> vchild v e = Some w -> vset_elem v e w = Some v.
Proof.
  destruct e as [k|i], v; try discriminate; cbn [vchild vset_elem]; intros K E; f_equal; f_equal.
  - apply msorted_ext; [apply msorted_mset; apply K|apply K|]. intros k'. rewrite mget_mset by apply K.
    destruct (beqb k' k) eqn:B; auto. apply beqb_eq in B. congruence.
  - clear K. revert E. generalize (N.to_nat i). induction l as [|y l IH]; intros [|n]; cbn; try discriminate; [congruence|]. intros E. rewrite IH; auto.
Qed.

Lemma verase_cons v e q rm : q <> [] -> verase v (e :: q) rm =
  match vchild v e with
  | None => Ok v
  | Some w =>
      do w' <- verase w q rm;
      match vset_elem v e w' with
      | None => Throw UnexpectedTypeError
      | Some v1 =>
          if rm then
            match vempty w' with
            | None => Throw InvalidOperationError
            | Some true => match verase_elem v1 e with Some v' => Ok v' | None => Throw UnexpectedTypeError end
            | Some false => Ok v1
            end
          else Ok v1
      end
  end.
Proof. intros N. destruct q; [congruence|reflexivity]. Qed.
Lemma verase_elem_sorted v e v' : vsorted v -> verase_elem v e = Some v' -> vsorted v'.
Proof.
  intros K E. destruct e as [k|i], v; try discriminate; cbn [verase_elem] in E; injection E as <-; auto.
  - apply vsorted_map in K. apply vsorted_map. destruct K as [K1 K2]. split; [apply msorted_mdel; auto|].
    rewrite Forall_forall in *. intros [k' y] I. assert (H : mget k' (mdel k m) = Some y) by (apply In_mget; auto using msorted_mdel).
    rewrite mget_mdel in H by auto. destruct (beqb k' k); [discriminate|]. apply mget_In in H. apply (K2 _ H).
  - apply vsorted_list in K. apply vsorted_list. rewrite Forall_forall in *.
    destruct (i + 1 <? N.of_nat (List.length l)); [|destruct (i <? N.of_nat (List.length l)); auto].
    + intros y I. apply In_nth_error in I. destruct I as [n I]. rewrite nth_vput in I.
      destruct (Nat.eqb n (N.to_nat i)); [injection I as <-; exact Logic.I|]. destruct (nth_error l n) eqn:G.
      * injection I as <-. apply K, (nth_error_In _ _ G).
      * match type of I with (if ?b then _ else _) = _ => destruct b end; try discriminate; injection I as <-; exact Logic.I.
    + intros y I. apply In_nth_error in I. destruct I as [n I]. rewrite nth_removelast in I.
      destruct (Nat.eqb _ _); [discriminate|]. apply K, (nth_error_In _ _ I).
Qed.
Lemma verase_sorted p : forall v rm v', vsorted v -> verase v p rm = Ok v' -> vsorted v'.
Proof.
  induction p as [|e p IH]; intros v rm v' K E; [cbn in E; congruence|].
  destruct p as [|e2 p].
  - cbn in E. destruct (verase_elem v e) eqn:G; [|discriminate]. injection E as <-. eapply verase_elem_sorted; eauto.
  - rewrite verase_cons in E by discriminate. destruct (vchild v e) as [w|] eqn:W; [|congruence].
    destruct (verase w (e2 :: p) rm) as [w'| | | |] eqn:Q; try discriminate. cbn [rbind] in E.
    destruct (vset_elem v e w') as [v1|] eqn:V1; [|discriminate].
    assert (K1 : vsorted v1). { eapply (vset_elem_sorted v e w'); eauto. eapply IH; [|exact Q]. eapply vsorted_child; eauto. }
    destruct rm; [|congruence]. destruct (vempty w') as [[|]|]; try discriminate; [|congruence].
    destruct (verase_elem v1 e) eqn:G; [|discriminate]. injection E as <-. eapply verase_elem_sorted; eauto.
Qed.

(** Nothing beside the path changes. *)
Lemma diverge_cons e p f q : diverge (e :: p) (f :: q) -> e = f /\ diverge p q \/ e <> f.
Proof.
  intros ([|g r] & e1 & f1 & p' & q' & E1 & E2 & N); cbn in *; injection E1 as -> ->; injection E2 as -> ->; auto.
  left. split; auto. exists r, e1, f1, p', q'. auto.
Qed.
Lemma diverge_nil q : ~ diverge [] q.
Proof. intros ([|] & ? & ? & ? & ? & E & _); discriminate. Qed.
Lemma diverge_nil_r p : ~ diverge p [].
Proof. intros ([|] & ? & ? & ? & ? & _ & E & _); discriminate. Qed.
Lemma vset_elem_other v e w w' v1 f : vsorted v -> vchild v e = Some w -> vset_elem v e w' = Some v1 -> f <> e -> vchild v1 f = vchild v f.
Proof.
  intros K W V N. destruct (vset_elem_child v e w' v1 f K V) as [_ H]. destruct (H N) as [|(H1 & H2 & i & j & -> & -> & L)]; auto.
  destruct v; try discriminate. cbn in *. apply nth_error_None in H1. assert ((N.to_nat j < List.length l)%nat) by (apply nth_error_Some; congruence). lia.
Qed.
Lemma vempty_child w e x : vempty w = Some true -> vchild w e = Some x -> False.
Proof. destruct w; cbn; try discriminate; destruct e; try discriminate; destruct l || destruct m; cbn; try discriminate. destruct (N.to_nat i); discriminate. Qed.

Lemma verase_other p : forall v rm v' q, vsorted v -> verase v p rm = Ok v' -> diverge p q -> vat v' q = vat v q.
Proof.
  induction p as [|e p IH]; intros v rm v' q K E D; [destruct (diverge_nil _ D)|].
  destruct q as [|f q]; [destruct (diverge_nil_r _ D)|]. apply diverge_cons in D.
  destruct p as [|e2 p].
  - destruct D as [[_ D]|D]; [destruct (diverge_nil _ D)|].
    cbn in E. destruct (verase_elem v e) eqn:G; [|discriminate]. injection E as <-. cbn [vat].
    destruct (verase_elem_child v e v0 f K G) as [H _]. rewrite H by congruence. reflexivity.
  - rewrite verase_cons in E by discriminate. destruct (vchild v e) as [w|] eqn:W; [|congruence].
    destruct (verase w (e2 :: p) rm) as [w'| | | |] eqn:Q; try discriminate. cbn [rbind] in E.
    destruct (vset_elem v e w') as [v1|] eqn:V1; [|discriminate].
    assert (Kw : vsorted w) by (eapply vsorted_child; eauto).
    assert (H1 : vat v1 (f :: q) = vat v (f :: q)).
    { cbn [vat]. destruct D as [[<- D]|D].
      - destruct (vset_elem_child v e w' v1 e K V1) as [H _]. rewrite (H eq_refl), W. eapply IH; eauto.
      - rewrite (vset_elem_other _ _ _ _ _ f K W V1) by congruence. reflexivity. }
    destruct rm; [|congruence]. destruct (vempty w') as [[|]|] eqn:EM; try discriminate; [|congruence].
    destruct (verase_elem v1 e) eqn:G; [|discriminate]. injection E as <-. rewrite <- H1. cbn [vat].
    assert (K1 : vsorted v1) by (eapply (vset_elem_sorted v e w'); eauto; eapply verase_sorted; eauto).
    destruct (verase_elem_child v1 e v0 f K1 G) as [H2 H3].
    destruct D as [[<- D]|D]; [|rewrite H2 by congruence; reflexivity].
    destruct (vset_elem_child v e w' v1 e K V1) as [H _]. rewrite (H eq_refl).
    assert (N : vat w' q = None).
    { destruct q as [|g q]; [destruct (diverge_nil_r _ D)|]. cbn [vat]. destruct (vchild w' g) eqn:C; auto. destruct (vempty_child _ _ _ EM C). }
    rewrite N. destruct (H3 eq_refl) as [-> |[_ ->]]; auto. destruct (vat_null q) as [->| ->]; auto. destruct (diverge_nil_r _ D).
Qed.

(** The path itself is gone, or is the null in the middle of a list. *)
Lemma vat_snoc v p e : vat v (p ++ [e]) = match vat v p with Some w => vchild w e | None => None end.
Proof. revert v; induction p as [|f p IH]; intros v; cbn [app vat]; [destruct (vchild v e)|destruct (vchild v f)]; auto. Qed.
Lemma vat_app v p q : vat v (p ++ q) = match vat v p with Some w => vat w q | None => None end.
Proof. revert v; induction p as [|f p IH]; intros v; cbn [app vat]; auto. destruct (vchild v f); auto. Qed.
Definition gone (o : option value) : Prop := o = None \/ o = Some VNull.
Lemma verase_gone p : forall v rm v', vsorted v -> p <> [] -> verase v p rm = Ok v' -> gone (vat v' p).
Proof.
  induction p as [|e p IH]; intros v rm v' K N E; [congruence|]. destruct p as [|e2 p].
  - cbn in E. destruct (verase_elem v e) eqn:G; [|discriminate]. injection E as <-. cbn [vat].
    destruct (verase_elem_child v e v0 e K G) as [_ H]. unfold gone. destruct (H eq_refl) as [-> |[_ ->]]; auto.
  - rewrite verase_cons in E by discriminate. destruct (vchild v e) as [w|] eqn:W.
    2:{ injection E as <-. left. cbn [vat]. rewrite W. reflexivity. }
    destruct (verase w (e2 :: p) rm) as [w'| | | |] eqn:Q; try discriminate. cbn [rbind] in E.
    destruct (vset_elem v e w') as [v1|] eqn:V1; [|discriminate].
    assert (Kw : vsorted w) by (eapply vsorted_child; eauto).
    assert (H1 : gone (vat v1 (e :: e2 :: p))).
    { change (gone (match vchild v1 e with Some w0 => vat w0 (e2 :: p) | None => None end)).
      destruct (vset_elem_child v e w' v1 e K V1) as [H _]. rewrite (H eq_refl). eapply IH; eauto. discriminate. }
    destruct rm; [|congruence]. destruct (vempty w') as [[|]|] eqn:EM; try discriminate; [|congruence].
    destruct (verase_elem v1 e) eqn:G; [|discriminate]. injection E as <-.
    assert (K1 : vsorted v1) by (eapply (vset_elem_sorted v e w'); eauto; eapply verase_sorted; eauto).
    destruct (verase_elem_child v1 e v0 e K1 G) as [_ H3]. left. cbn [vat].
    destruct (H3 eq_refl) as [-> |[_ ->]]; auto.
Qed.
(** Without removal of empty containers an absent path changes nothing, and what is above stays. *)
Lemma verase_absent p : forall v v', vsorted v -> verase v p false = Ok v' -> vat v p = None -> v' = v.
Proof.
  induction p as [|e p IH]; intros v v' K E A; [discriminate|]. destruct p as [|e2 p].
  - cbn in E, A. destruct (verase_elem v e) eqn:G; [|discriminate]. injection E as <-.
    eapply verase_elem_absent; eauto. destruct (vchild v e); [discriminate|auto].
  - rewrite verase_cons in E by discriminate. cbn [vat] in A. destruct (vchild v e) as [w|] eqn:W; [|congruence].
    destruct (verase w (e2 :: p) false) as [w'| | | |] eqn:Q; try discriminate. cbn [rbind] in E.
    assert (Kw : vsorted w) by (eapply vsorted_child; eauto).
    rewrite (IH _ _ Kw Q) in E by exact A. rewrite (vset_elem_same _ _ _ K W) in E. congruence.
Qed.

(** What is above stays a container, when nothing else is removed. *)
Lemma vchild_kind v e w : vchild v e = Some w -> kind_for e v.
Proof. destruct v, e; cbn; try discriminate; eauto. Qed.
Lemma verase_above q : forall v e r v', vsorted v -> verase v (q ++ e :: r) false = Ok v' -> vat v (q ++ e :: r) <> None ->
  exists w', vat v' q = Some w' /\ kind_for e w'.
Proof.
  induction q as [|g q IH]; intros v e r v' K E A.
  - exists v'. split; auto. cbn [app] in *. destruct r as [|e2 r].
    + cbn [vat] in A. cbn in E. destruct (vchild v e) eqn:W; [|congruence]. apply vchild_kind in W.
      destruct e, W as [z ->]; cbn in E; injection E as <-; cbn; eauto.
    + rewrite verase_cons in E by discriminate. cbn [vat] in A. destruct (vchild v e) as [w|]; [|congruence].
      destruct (verase w (e2 :: r) false); try discriminate. cbn [rbind] in E. destruct (vset_elem v e a) eqn:V; [|discriminate].
      injection E as <-. eapply vset_elem_kind; eauto.
  - cbn [app] in *. assert (N : q ++ e :: r <> []) by (destruct q; discriminate). rewrite verase_cons in E by auto. cbn [vat] in A.
    destruct (vchild v g) as [w|] eqn:W; [|congruence]. destruct (verase w (q ++ e :: r) false) as [w'| | | |] eqn:Q; try discriminate. cbn [rbind] in E.
    destruct (vset_elem v g w') as [v1|] eqn:V; [|discriminate]. injection E as <-.
    destruct (IH w e r w' (vsorted_child _ _ _ K W) Q A) as (w2 & H1 & H2). exists w2. split; auto.
    cbn [vat]. destruct (vset_elem_child v g w' v1 g K V) as [H _]. rewrite (H eq_refl). exact H1.
Qed.
(** With removal: nothing empty is left above, except the root. *)
Lemma verase_no_empty q : forall v e r v', vsorted v -> q <> [] -> verase v (q ++ e :: r) true = Ok v' -> vat v (q ++ e :: r) <> None ->
  gone (vat v' q) \/ exists w', vat v' q = Some w' /\ vempty w' = Some false.
Proof.
  induction q as [|g q IH]; intros v e r v' K NQ E A; [congruence|].
  cbn [app] in *. assert (N : q ++ e :: r <> []) by (destruct q; discriminate). rewrite verase_cons in E by auto. cbn [vat] in A.
  destruct (vchild v g) as [w|] eqn:W; [|congruence]. destruct (verase w (q ++ e :: r) true) as [w'| | | |] eqn:Q; try discriminate. cbn [rbind] in E.
  destruct (vset_elem v g w') as [v1|] eqn:V; [|discriminate].
  assert (Kw : vsorted w) by (eapply vsorted_child; eauto).
  assert (K1 : vsorted v1) by (eapply (vset_elem_sorted v g w'); eauto; eapply verase_sorted; eauto).
  destruct (vset_elem_child v g w' v1 g K V) as [H _]. specialize (H eq_refl).
  destruct (vempty w') as [[|]|] eqn:EM; try discriminate.
  - destruct (verase_elem v1 g) as [v2|] eqn:G; [|discriminate]. injection E as <-.
    destruct (verase_elem_child v1 g v2 g K1 G) as [_ H3]. left. cbn [vat]. destruct (H3 eq_refl) as [-> |[_ ->]]; [left; auto|].
    destruct (vat_null q) as [->| ->]; [left|right]; auto.
  - injection E as <-. cbn [vat]. rewrite H. destruct q as [|g2 q].
    + right. exists w'. auto.
    + apply (IH w e r w' Kw); auto. discriminate.
Qed.
(** With removal: an absent path changes nothing when nothing on the way is empty. *)
Lemma verase_absent_full p : forall v v', vsorted v -> verase v p true = Ok v' -> vat v p = None ->
  (forall q r w, p = q ++ r -> q <> [] -> vat v q = Some w -> vempty w <> Some true) -> v' = v.
Proof.
  induction p as [|e p IH]; intros v v' K E A H; [discriminate|]. destruct p as [|e2 p].
  - cbn in E, A. destruct (verase_elem v e) eqn:G; [|discriminate]. injection E as <-.
    eapply verase_elem_absent; eauto. destruct (vchild v e); [discriminate|auto].
  - rewrite verase_cons in E by discriminate. cbn [vat] in A. destruct (vchild v e) as [w|] eqn:W; [|congruence].
    destruct (verase w (e2 :: p) true) as [w'| | | |] eqn:Q; try discriminate. cbn [rbind] in E.
    assert (Kw : vsorted w) by (eapply vsorted_child; eauto).
    assert (w' = w).
    { apply (IH _ _ Kw Q); auto. intros q r x Eq Nq Ax. apply (H (e :: q) r); [cbn; congruence|discriminate|]. cbn [vat]. rewrite W. exact Ax. }
    subst w'. rewrite (vset_elem_same _ _ _ K W) in E. assert (NE : vempty w <> Some true).
    { apply (H [e] (e2 :: p)); auto. discriminate. cbn [vat]. rewrite W. reflexivity. }
    destruct (vempty w) as [[|]|]; congruence.
Qed.
(** When it fails. *)
Lemma verase_fails p : forall v x, vsorted v -> verase v p false = Throw x ->
  x = UnexpectedTypeError /\ exists q e w, p = q ++ [e] /\ vat v q = Some w /\ w <> VNull /\ ~ kind_for e w.
Proof.
  induction p as [|e p IH]; intros v x K E; [discriminate|]. destruct p as [|e2 p].
  - cbn in E. destruct (verase_elem v e) eqn:G; [discriminate|]. split; [congruence|]. exists [], e, v. repeat split.
    + intros ->. destruct e; discriminate.
    + destruct e; intros [z ->]; discriminate.
  - rewrite verase_cons in E by discriminate. destruct (vchild v e) as [w|] eqn:W; [|discriminate].
    assert (Kw : vsorted w) by (eapply vsorted_child; eauto).
    destruct (verase w (e2 :: p) false) as [w'| y | | |] eqn:Q; try discriminate; cbn [rbind] in E.
    + destruct (vset_elem v e w') eqn:V; [discriminate|]. apply vchild_kind in W. destruct e, W as [z ->]; discriminate.
    + destruct (IH w y Kw Q) as (Ey & q & e3 & w3 & Ep & H). split; [congruence|]. exists (e :: q), e3, w3. rewrite Ep. split; auto.
      cbn [vat]. rewrite W. exact H.
Qed.
(** The null can only be that of an entry with others behind it in a list. *)
Lemma verase_gone_exact p : forall v rm v', vsorted v -> p <> [] -> verase v p rm = Ok v' ->
  vat v' p = None \/ vat v' p = Some VNull /\ exists q e w, p = q ++ [e] /\ vat v q = Some w /\ interior w e.
Proof.
  induction p as [|e p IH]; intros v rm v' K N E; [congruence|]. destruct p as [|e2 p].
  - cbn in E. destruct (verase_elem v e) eqn:G; [|discriminate]. injection E as <-. cbn [vat].
    destruct (verase_elem_child v e v0 e K G) as [_ H]. destruct (H eq_refl) as [-> |[J ->]]; auto. right. split; auto. exists [], e, v. auto.
  - rewrite verase_cons in E by discriminate. destruct (vchild v e) as [w|] eqn:W.
    2:{ injection E as <-. left. cbn [vat]. rewrite W. reflexivity. }
    destruct (verase w (e2 :: p) rm) as [w'| | | |] eqn:Q; try discriminate. cbn [rbind] in E.
    destruct (vset_elem v e w') as [v1|] eqn:V1; [|discriminate].
    assert (Kw : vsorted w) by (eapply vsorted_child; eauto).
    assert (K1 : vsorted v1) by (eapply (vset_elem_sorted v e w'); eauto; eapply verase_sorted; eauto).
    destruct (vset_elem_child v e w' v1 e K V1) as [H1 _]. specialize (H1 eq_refl).
    assert (IH1 := IH _ _ _ Kw ltac:(discriminate) Q).
    assert (Keep : v' = v1 -> vat v' (e :: e2 :: p) = None \/ vat v' (e :: e2 :: p) = Some VNull /\ exists q e0 w0, e :: e2 :: p = q ++ [e0] /\ vat v q = Some w0 /\ interior w0 e0).
    { intros ->. cbn [vat] in *. rewrite H1. destruct IH1 as [IH1|(IH1 & q & e0 & w0 & Ep & A & B)]; auto. right. split; auto.
      exists (e :: q), e0, w0. split; [cbn; congruence|]. cbn [vat]. rewrite W. auto. }
    destruct rm; [|apply Keep; congruence]. destruct (vempty w') as [[|]|]; try discriminate; [|apply Keep; congruence].
    destruct (verase_elem v1 e) as [v2|] eqn:G; [|discriminate]. injection E as <-. cbn [vat]. left.
    destruct (verase_elem_child v1 e v2 e K1 G) as [_ H2]. destruct (H2 eq_refl) as [-> |[J ->]]; auto.
Qed.
