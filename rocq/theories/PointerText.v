(** RFC 6901 pointers as text, and the locations they stand for. *)
From Verif Require Import Base CNum Float Value Blob Path Numeric Convert Emit Uri P_Uri Heap HeapProofs HeapSpec SharingProofs ValueOps HeapTree
  HeapErase HeapTreeFacts Pointer PointerWalk PointerOps PointerCmp PointerSem PatchSem.
Open Scope N_scope.

(** ** RFC 6901, section 3: the text of a list of reference tokens *)
Fixpoint rfc_escape (k : bytes) : bytes :=
  match k with
  | [] => []
  | c :: t => if aeqb c "~" then "~"%char :: "0"%char :: rfc_escape t else if aeqb c "/" then "~"%char :: "1"%char :: rfc_escape t else c :: rfc_escape t
  end.
Definition rfc_text (ks : list bytes) : bytes := List.concat (List.map (fun k => "/"%char :: rfc_escape k) ks).
(** The pointer to a path: section 4. *)
Definition rfc_pointer (p : path) : bytes := rfc_text (tokens p).

Lemma unescape_escape k : unescape (rfc_escape k) = k.
Proof.
  induction k as [|c k IH]; auto. cbn [rfc_escape]. destruct (aeqb c "~") eqn:E.
  - apply aeqb_eq in E. subst c. cbn. rewrite IH. reflexivity.
  - destruct (aeqb c "/") eqn:S.
    + apply aeqb_eq in S. subst c. cbn. rewrite IH. reflexivity.
    + cbn [unescape]. rewrite E, IH. reflexivity.
Qed.
Lemma escape_slashless k : slashless (rfc_escape k).
Proof.
  unfold slashless. induction k as [|c k IH]; cbn [rfc_escape]; [intros []|]. destruct (aeqb c "~") eqn:E.
  - intros [H|[H|H]]; [discriminate|discriminate|auto].
  - destruct (aeqb c "/") eqn:S.
    + intros [H|[H|H]]; [discriminate|discriminate|auto].
    + intros [H|H]; [|auto]. subst c. discriminate.
Qed.
Lemma slashed_text ks : rfc_text ks = slashed (List.map rfc_escape ks).
Proof. unfold rfc_text. induction ks as [|k ks IH]; cbn; auto. rewrite IH. reflexivity. Qed.
Lemma components_text ks : components (rfc_text ks) = Some ks.
Proof.
  destruct ks as [|k ks]; [reflexivity|]. rewrite slashed_text. cbn [List.map slashed components]. change (aeqb "/" "/") with true. cbv iota.
  rewrite split_slashed; [|apply escape_slashless|apply Forall_forall; intros x H; apply in_map_iff in H; destruct H as (y & <- & _); apply escape_slashless].
  cbn [List.map]. rewrite unescape_escape, map_map. rewrite (map_ext (fun x => unescape (rfc_escape x)) (fun x => x) unescape_escape), map_id. reflexivity.
Qed.

(** ** RFC 6901, section 4: what a list of tokens refers to *)
Inductive locates : value -> list bytes -> path -> value -> Prop :=
  | loc_here v : locates v [] [] v
  | loc_key m k w ks p x : mget k m = Some w -> locates w ks p x -> locates (VMap m) (k :: ks) (PKey k :: p) x
  | loc_idx vs i w ks p x : nth_error vs (N.to_nat i) = Some w -> locates w ks p x -> locates (VList vs) (dec_of_N i :: ks) (PIdx i :: p) x.
(** A token that the library reads as an index is one in the form of the RFC, and has 32 bits. *)
Definition canonical (k : bytes) : Prop := match is_index k with Some i => k = dec_of_N i /\ i < 2^32 | None => True end.
(** Where an addition goes (RFC 6902, section 4.1). *)
Inductive target (v : value) : list bytes -> path -> Prop :=
  | tgt_root : target v [] []
  | tgt_key ks k q m : locates v ks q (VMap m) -> target v (ks ++ [k]) (q ++ [PKey k])
  | tgt_idx ks i q vs : locates v ks q (VList vs) -> (N.to_nat i <= List.length vs)%nat -> target v (ks ++ [dec_of_N i]) (q ++ [PIdx i])
  | tgt_end ks q vs : locates v ks q (VList vs) -> target v (ks ++ [s2b "-"]) (q ++ [PIdx (N.of_nat (List.length vs))]).
(** An index behind the end of a list. *)
Definition beyond (v : value) (ks : list bytes) : Prop :=
  exists ks0 q vs i, ks = ks0 ++ [dec_of_N i] /\ locates v ks0 q (VList vs) /\ (List.length vs < N.to_nat i)%nat.

Lemma lists_fit_child v e w : lists_fit v -> vchild v e = Some w -> lists_fit w.
Proof. intros L E q vs A. apply (L (e :: q) vs). cbn [vat]. rewrite E. exact A. Qed.
Lemma locates_route v ks p w : locates v ks p w -> lists_fit v -> route v ks = Some p /\ vat v p = Some w.
Proof.
  induction 1 as [v|m k w ks p x G H IH|vs i w ks p x G H IH]; intros L; [split; reflexivity| |].
  - assert (C : vchild (VMap m) (PKey k) = Some w) by exact G. destruct (IH (lists_fit_child _ _ _ L C)) as [A B]. cbn [route elem_for vat].
    rewrite C, A, B. split; reflexivity.
  - assert (C : vchild (VList vs) (PIdx i) = Some w) by exact G. destruct (IH (lists_fit_child _ _ _ L C)) as [A B]. cbn [route elem_for vat].
    assert (Li := L [] vs eq_refl). assert (N.to_nat i < List.length vs)%nat by (apply nth_error_Some; congruence).
    rewrite is_index_dec by lia. replace (wrap32 i) with i by (unfold wrap32; rewrite N.mod_small; lia). rewrite C, A, B. split; reflexivity.
Qed.
Lemma route_locates ks : forall v p, route v ks = Some p -> Forall canonical ks -> exists w, locates v ks p w.
Proof.
  induction ks as [|k ks IH]; intros v p E C; cbn [route] in E.
  - injection E as <-. exists v. constructor.
  - inversion C as [|? ? Ck Cs]; subst. destruct (elem_for v k) as [e|] eqn:EF; [|discriminate]. destruct (vchild v e) as [w|] eqn:W; [|discriminate].
    destruct (route w ks) as [q|] eqn:R; [|discriminate]. injection E as <-. destruct (IH w q R Cs) as [x Lx]. exists x.
    destruct v; try discriminate; cbn [elem_for] in EF.
    + unfold canonical in Ck. destruct (is_index k) as [i|]; [|discriminate]. destruct Ck as [-> Li]. injection EF as <-.
      replace (wrap32 i) with i in * by (unfold wrap32; rewrite N.mod_small; auto). apply loc_idx with (w := w); auto.
    + injection EF as <-. apply loc_key with (w := w); auto.
Qed.
Lemma locates_tokens p : forall v w, vat v p = Some w -> locates v (tokens p) p w.
Proof.
  induction p as [|e p IH]; intros v w A; cbn [vat tokens List.map] in *; [injection A as ->; constructor|].
  destruct (vchild v e) as [y|] eqn:E; [|discriminate]. destruct v, e; try discriminate; cbn [tok].
  - apply loc_idx with (w := y); [exact E|apply IH, A].
  - apply loc_key with (w := y); [exact E|apply IH, A].
Qed.

Lemma target_spot v ks p : target v ks p -> lists_fit v -> spot v ks = Some p /\ forall x, radd v p x <> None.
Proof.
  intros T L. assert (VS : forall q v0 w w', vat v0 q = Some w -> exists z, vset v0 q w' = Some z).
  { clear. induction q as [|e q IH]; intros v0 w w' W; [eexists; reflexivity|]. cbn [vat] in W. cbn [vset].
    destruct (vchild v0 e) as [y|] eqn:Y; [|discriminate]. destruct (IH y w w' W) as (z & ->). destruct v0, e; try discriminate; cbn [vset_elem]; eauto. }
  destruct T as [|ks k q m H|ks i q vs H Li|ks q vs H].
  - split; [reflexivity|discriminate].
  - destruct (locates_route _ _ _ _ H L) as [R A]. rewrite spot_last, R, A. cbn [place_for]. split; [reflexivity|]. intros x. rewrite radd_last, A. cbn [rinsert].
    destruct (VS q v _ (VMap (mset k x m)) A) as [z ->]. discriminate.
  - destruct (locates_route _ _ _ _ H L) as [R A]. rewrite spot_last, R, A. cbn [place_for]. rewrite not_dash. assert (Lv := L q vs A).
    rewrite is_index_dec by lia. split; [reflexivity|]. intros x. rewrite radd_last, A. cbn [rinsert]. destruct (Nat.leb_spec (N.to_nat i) (List.length vs)); [|lia].
    destruct (VS q v _ (VList (insert_at (N.to_nat i) x vs)) A) as [z ->]. discriminate.
  - destruct (locates_route _ _ _ _ H L) as [R A]. rewrite spot_last, R, A. cbn [place_for]. rewrite beqb_refl. split; [reflexivity|]. intros x. rewrite radd_last, A. cbn [rinsert].
    destruct (Nat.leb_spec (N.to_nat (N.of_nat (List.length vs))) (List.length vs)); [|lia].
    destruct (VS q v _ (VList (insert_at (N.to_nat (N.of_nat (List.length vs))) x vs)) A) as [z ->]. discriminate.
Qed.
Lemma spot_target v ks p : spot v ks = Some p -> Forall canonical ks -> target v ks p \/ beyond v ks /\ forall x, radd v p x = None.
Proof.
  destruct (list_cases ks) as [->|(ks0 & k & ->)]; [cbn; intros E _; injection E as <-; left; constructor|]. rewrite spot_last.
  intros E C. apply Forall_app in C. destruct C as [C0 Ck]. inversion Ck as [|? ? Ck' _]; subst.
  destruct (route v ks0) as [q|] eqn:R; [|discriminate]. destruct (route_locates ks0 v q R C0) as [w Lw].
  destruct (route_vat _ _ _ R) as [w' W']. rewrite W' in E.
  assert (w' = w). { clear -Lw W'. revert W'. induction Lw as [v|m k w ks p x G H IH|vs i w ks p x G H IH]; cbn [vat vchild]; rewrite ?G; [congruence| |]; auto. }
  subst w'. destruct w; try discriminate; cbn [place_for] in E.
  - destruct (beqb k (s2b "-")) eqn:B.
    + apply beqb_eq in B. subst k. injection E as <-. left. eapply tgt_end; eauto.
    + unfold canonical in Ck'. destruct (is_index k) as [i|]; [|discriminate]. destruct Ck' as [-> Li]. injection E as <-.
      destruct (Nat.leb_spec (N.to_nat i) (List.length l)); [left; eapply tgt_idx; eauto|]. right. split; [exists ks0, q, l, i; auto|].
      intros x. rewrite radd_last, W'. cbn [rinsert]. destruct (Nat.leb_spec (N.to_nat i) (List.length l)); [lia|reflexivity].
  - injection E as <-. left. eapply tgt_key; eauto.
Qed.

(** ** What the operations leave, seen from outside *)
(** [x] was added at [q ++ [e]]: a key is set, an index is inserted; nothing else moves. *)
Definition inserted (v : value) (p : path) (x v' : value) : Prop :=
  match p with
  | [] => v' = x
  | _ =>
      let q := removelast p in
      (forall r, diverge q r -> vat v' r = vat v r) /\
      match last p (PIdx 0) with
      | PKey k =>
          exists m m', vat v q = Some (VMap m) /\ vat v' q = Some (VMap m') /\
            forall k' r, vat v' (q ++ PKey k' :: r) = if beqb k' k then vat x r else vat v (q ++ PKey k' :: r)
      | PIdx i =>
          exists vs vs', vat v q = Some (VList vs) /\ vat v' q = Some (VList vs') /\ (N.to_nat i <= List.length vs)%nat /\
            forall j r, vat v' (q ++ PIdx j :: r) =
              if j <? i then vat v (q ++ PIdx j :: r) else if j =? i then vat x r else vat v (q ++ PIdx (j - 1) :: r)
      end
  end.
(** A key was removed; the library leaves null where the whole document was. *)
Definition deleted (v : value) (p : path) (v' : value) : Prop :=
  match p with
  | [] => v' = VNull
  | _ =>
      let q := removelast p in
      (forall r, diverge q r -> vat v' r = vat v r) /\
      match last p (PIdx 0) with
      | PKey k =>
          exists m m', vat v q = Some (VMap m) /\ vat v' q = Some (VMap m') /\
            forall k' r, vat v' (q ++ PKey k' :: r) = if beqb k' k then None else vat v (q ++ PKey k' :: r)
      | PIdx _ => False
      end
  end.
(** The value at [p] was replaced. *)
Definition replaced (v : value) (p : path) (x v' : value) : Prop :=
  (forall r, diverge p r -> vat v' r = vat v r) /\ forall r, vat v' (p ++ r) = vat x r.

Lemma vat_vset_there v p w x v' q : vsorted v -> vat v p = Some w -> vset v p x = Some v' -> diverge p q -> vat v' q = vat v q.
Proof.
  intros K A E D. destruct (vat_vset_other v p x v' q K E D) as [H|(H1 & H2 & r & i & j & p' & -> & -> & L)]; auto. exfalso.
  rewrite vat_app in A. rewrite vat_app in H1. destruct (vat v r) as [y|]; [|discriminate]. cbn [vat] in *. destruct y; try discriminate. cbn [vchild] in *.
  destruct (nth_error l (N.to_nat j)) eqn:Nj; [|discriminate]. destruct (nth_error l (N.to_nat i)) eqn:Ni; [discriminate|].
  apply nth_error_None in Ni. assert (N.to_nat j < List.length l)%nat by (apply nth_error_Some; congruence). lia.
Qed.
Lemma vat_mid v q w r : vat v q = Some w -> vat v (q ++ r) = vat w r.
Proof. intros A. rewrite vat_app, A. reflexivity. Qed.
Lemma nth_insert {A} i (x : A) l j : (i <= List.length l)%nat -> nth_error (insert_at i x l) j =
  if (j <? i)%nat then nth_error l j else if (j =? i)%nat then Some x else nth_error l (j - 1).
Proof.
  unfold insert_at. intros L. assert (LF : List.length (firstn i l) = i) by (rewrite firstn_length; lia).
  destruct (Nat.ltb_spec j i).
  - rewrite nth_error_app1 by lia. revert j l L LF H. induction i as [|i IH]; intros [|j] [|y l] L LF H; cbn in *; try lia; auto. apply IH; lia.
  - rewrite nth_error_app2, LF by lia. destruct (Nat.eqb_spec j i).
    + subst. rewrite Nat.sub_diag. reflexivity.
    + replace (j - i)%nat with (S (j - i - 1)) by lia. cbn [nth_error].
      rewrite <- (firstn_skipn i l) at 2. rewrite nth_error_app2 by lia. rewrite LF. f_equal. lia.
Qed.
Lemma radd_inserted v p x v' : vsorted v -> radd v p x = Some v' -> inserted v p x v'.
Proof.
  intros K E. destruct (list_cases p) as [->|(q & e & ->)]; [cbn in *; congruence|]. rewrite radd_last in E.
  destruct (vat v q) as [w|] eqn:W; [|discriminate]. destruct (rinsert w e x) as [w'|] eqn:R; [|discriminate].
  unfold inserted. destruct (q ++ [e]) eqn:Q; [destruct q; discriminate|]. rewrite <- Q, removelast_last, last_last. clear Q.
  split; [intros r; eapply vat_vset_there; eauto|].
  assert (W' : vat v' q = Some w'). { assert (H := vat_vset v q w' v' [] K E). rewrite app_nil_r in H. exact H. }
  assert (Kw : vsorted w). { clear -K W. revert v K W. induction q as [|e q IH]; intros v K W; cbn in W; [congruence|]. destruct (vchild v e) eqn:C; [|discriminate]. eauto using vsorted_child. }
  destruct w, e; try discriminate; cbn [rinsert] in R.
  - destruct (Nat.leb_spec (N.to_nat i) (List.length l0)); [|discriminate]. injection R as <-. exists l0, (insert_at (N.to_nat i) x l0). repeat split; auto.
    intros j r. rewrite !(vat_mid _ _ _ _ W'), !(vat_mid _ _ _ _ W). cbn [vat vchild]. rewrite nth_insert by auto.
    destruct (N.ltb_spec j i); destruct (Nat.ltb_spec (N.to_nat j) (N.to_nat i)); try lia; auto.
    destruct (N.eqb_spec j i); destruct (Nat.eqb_spec (N.to_nat j) (N.to_nat i)); try lia; auto.
    replace (N.to_nat (j - 1)) with (N.to_nat j - 1)%nat by lia. reflexivity.
  - injection R as <-. exists m, (mset k x m). repeat split; auto. intros k' r. rewrite (vat_mid _ _ _ _ W'), (vat_mid _ _ _ _ W). cbn [vat vchild].
    apply vsorted_map in Kw. rewrite mget_mset by tauto. destruct (beqb k' k); reflexivity.
Qed.

Lemma vsorted_vat q : forall v w, vsorted v -> vat v q = Some w -> vsorted w.
Proof. induction q as [|e q IH]; intros v w K W; cbn [vat] in W; [congruence|]. destruct (vchild v e) eqn:C; [|discriminate]. eauto using vsorted_child. Qed.
Lemma rremove_deleted v p v' : vsorted v -> rremove v p = Some v' -> in_list v p = false -> deleted v p v'.
Proof.
  intros K E NL. destruct (list_cases p) as [->|(q & e & ->)]; [cbn in *; congruence|]. rewrite rremove_last in E. rewrite in_list_last in NL.
  destruct (vat v q) as [w|] eqn:W; [|discriminate]. destruct (rdelete w e) as [w'|] eqn:R; [|discriminate].
  unfold deleted. destruct (q ++ [e]) eqn:Q; [destruct q; discriminate|]. rewrite <- Q, removelast_last, last_last. clear Q.
  split; [intros r; eapply vat_vset_there; eauto|].
  assert (W' : vat v' q = Some w'). { assert (H := vat_vset v q w' v' [] K E). rewrite app_nil_r in H. exact H. }
  assert (Kw := vsorted_vat _ _ _ K W). destruct w, e; try discriminate; cbn [rdelete] in R.
  destruct (mget k m) eqn:G; [|discriminate]. injection R as <-. exists m, (mdel k m). repeat split; auto.
  intros k' r. rewrite (vat_mid _ _ _ _ W'), (vat_mid _ _ _ _ W). cbn [vat vchild]. apply vsorted_map in Kw. rewrite mget_mdel by tauto.
  destruct (beqb k' k); reflexivity.
Qed.
Lemma vset_replaced v p w x v' : vsorted v -> vat v p = Some w -> vset v p x = Some v' -> replaced v p x v'.
Proof. intros K A E. split; [intros r; eapply vat_vset_there; eauto|]. intros r. eapply vat_vset; eauto. Qed.

(** Removing keys and storing values keeps lists short. *)
Lemma lists_fit_set q : forall v w x v', lists_fit v -> vsorted v -> vat v q = Some w -> lists_fit x -> vset v q x = Some v' -> lists_fit v'.
Proof.
  induction q as [|e q IH]; intros v w x v' L K A Lx E; cbn [vat vset] in *; [injection E as <-; exact Lx|].
  destruct (vchild v e) as [y|] eqn:C; [|discriminate]. destruct (vset y q x) as [y'|] eqn:Y; [|discriminate].
  assert (Ly : lists_fit y') by (apply (IH y w x y' (lists_fit_child _ _ _ L C) (vsorted_child _ _ _ K C) A Lx Y)).
  intros [|f r] vs V.
  - cbn in V. injection V as ->. destruct v, e; try discriminate. cbn [vset_elem] in E. injection E as <-. cbn [vchild] in C.
    assert (N.to_nat i < List.length l)%nat by (apply nth_error_Some; congruence). rewrite vput_within by auto. apply (L [] l). reflexivity.
  - cbn [vat] in V. destruct (vchild v' f) as [z|] eqn:Z; [|discriminate]. destruct (vset_elem_child v e y' v' f K E) as [H1 H2].
    assert (Dec : {f = e} + {f <> e}) by (decide equality; [apply list_eq_dec, ascii_dec|apply N.eq_dec]). destruct Dec as [->|N].
    + rewrite H1 in Z by auto. injection Z as <-. apply (Ly r vs V).
    + destruct (H2 N) as [H|(H3 & H4 & i & j & -> & -> & Lt)].
      * rewrite H in Z. apply (L (f :: r) vs). cbn [vat]. rewrite Z. exact V.
      * rewrite H4 in Z. injection Z as <-. destruct r as [|[|] r]; discriminate.
Qed.
Lemma lists_fit_remove v p v1 : lists_fit v -> vsorted v -> rremove v p = Some v1 -> in_list v p = false -> lists_fit v1.
Proof.
  intros L K E NL. destruct (list_cases p) as [->|(q & e & ->)].
  - cbn in E. injection E as <-. intros [|[|] r] vs V; discriminate.
  - rewrite rremove_last in E. rewrite in_list_last in NL. destruct (vat v q) as [w|] eqn:W; [|discriminate]. destruct (rdelete w e) as [w'|] eqn:R; [|discriminate].
    apply (lists_fit_set q v w w' v1 L K W); [|exact E]. assert (Kw := vsorted_vat _ _ _ K W). destruct w, e; try discriminate. cbn [rdelete] in R.
    destruct (mget k m) eqn:G; [|discriminate]. injection R as <-. intros [|f r] vs V; [discriminate|]. cbn [vat vchild] in V. destruct f; [|discriminate].
    apply vsorted_map in Kw. rewrite mget_mdel in V by tauto. destruct (beqb k0 k); [discriminate|]. apply (L (q ++ PKey k0 :: r) vs). rewrite (vat_mid _ _ _ _ W). exact V.
Qed.
