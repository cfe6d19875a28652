(** What normalising a schema changes, and what it does not. *)
From Verif Require Import Base Float Value Path Uri ValueOps SchemaLoad SchemaNorm.
Open Scope N_scope.

(** The base URI inside an object that is found where the base URI is [u]. *)
Inductive based (u : bytes) (m : list (bytes * value)) : bytes -> Prop :=
| based_id t : mget (s2b "id") m = Some (VStr t) -> based u m (resolve_uri u t)
| based_none : (forall t, mget (s2b "id") m <> Some (VStr t)) -> based u m u.
(** The places that are part of the schema: not in an "enum" and not in an object with a reference.
    [within u v p b w]: the path [p] of [v] leads to [w]; the base URI is [u] around [v] and [b] around [w]. *)
Inductive within : bytes -> value -> path -> bytes -> value -> Prop :=
| within_here u v : within u v [] u v
| within_key u m b k x p c w : based u m b -> (forall t, mget (s2b "$ref") m <> Some (VStr t)) -> k <> s2b "enum" ->
    mget k m = Some x -> within b x p c w -> within u (VMap m) (PKey k :: p) c w
| within_idx u l i x p c w : nth_error l (N.to_nat i) = Some x -> within u x p c w -> within u (VList l) (PIdx i :: p) c w.
(** The places of the texts that are resolved. *)
Inductive resolved (u : bytes) (v : value) : path -> bytes -> Prop :=
| resolved_id q b m t : within u v q b (VMap m) -> mget (s2b "id") m = Some (VStr t) -> resolved u v (q ++ [PKey (s2b "id")]) (resolve_uri b t)
| resolved_ref q b c m t : within u v q b (VMap m) -> based b m c -> mget (s2b "$ref") m = Some (VStr t) -> resolved u v (q ++ [PKey (s2b "$ref")]) (resolve_uri c t).
Definition scalar (v : value) : Prop := match v with VList _ | VMap _ => False | _ => True end.
(** Lists of the same length, objects with the same keys, or neither. *)
Definition same_outline (v w : value) : Prop :=
  match v, w with
  | VList l, VList l' => List.length l = List.length l'
  | VMap m, VMap m' => mkeys m = mkeys m'
  | VList _, _ | VMap _, _ | _, VList _ | _, VMap _ => False
  | _, _ => True
  end.

Lemma based_base u m b : based u m b -> b = base_in u m.
Proof.
  intros [t G|N]; unfold base_in, k_id; [rewrite G; reflexivity|]. destruct (mget (s2b "id") m) as [[]|]; auto. destruct (N s); reflexivity.
Qed.
Lemma base_based u m : based u m (base_in u m).
Proof.
  unfold base_in, k_id. destruct (mget (s2b "id") m) as [w|] eqn:G; [|apply based_none; rewrite G; discriminate].
  destruct w; try (apply based_none; rewrite G; discriminate). apply based_id, G.
Qed.
Lemma not_ref m : (forall t, mget (s2b "$ref") m <> Some (VStr t)) -> is_reference m = false.
Proof. unfold is_reference, k_ref. destruct (mget (s2b "$ref") m) as [[]|]; auto. intros H. destruct (H s); reflexivity. Qed.
Lemma is_ref m : is_reference m = false -> forall t, mget (s2b "$ref") m <> Some (VStr t).
Proof. unfold is_reference, k_ref. intros H t E. rewrite E in H. discriminate. Qed.
Lemma norm_get u m k : mget k (match vnorm u (VMap m) with VMap m' => m' | _ => [] end) =
  match mget k m with Some x => Some (norm_entry (vnorm (base_in u m)) (base_in u m) (is_reference m) k x) | None => None end.
Proof. cbn [vnorm]. exact (mget_map_snd (norm_entry (vnorm (base_in u m)) (base_in u m) (is_reference m)) m k). Qed.
Lemma vat_norm_key u m k p : vat (vnorm u (VMap m)) (PKey k :: p) =
  match mget k m with Some x => vat (norm_entry (vnorm (base_in u m)) (base_in u m) (is_reference m) k x) p | None => None end.
Proof. cbn [vat]. assert (H := norm_get u m k). cbn [vnorm] in *. cbn [vchild]. rewrite H. destruct (mget k m); reflexivity. Qed.
Lemma vat_norm_idx u l i p : vat (vnorm u (VList l)) (PIdx i :: p) =
  match nth_error l (N.to_nat i) with Some x => vat (vnorm u x) p | None => None end.
Proof. cbn [vat vnorm vchild]. rewrite nth_error_map. destruct (nth_error l (N.to_nat i)); reflexivity. Qed.

Lemma norm_within u v q b w : within u v q b w -> ~ scalar w -> forall p, vat (vnorm u v) (q ++ p) = vat (vnorm b w) p.
Proof.
  induction 1 as [u v|u m b k x q c w B R E G W IH|u l i x q c w G W IH]; intros Nw p; [reflexivity| |].
  - cbn [app]. rewrite vat_norm_key, G. apply based_base in B. subst b. rewrite (not_ref _ R).
    assert (norm_entry (vnorm (base_in u m)) (base_in u m) false k x = vnorm (base_in u m) x) as ->; [|apply IH, Nw].
    unfold norm_entry. cbn [orb]. replace (beqb k k_enum) with false.
    + destruct x; auto. inversion W; subst; cbn in Nw; tauto.
    + symmetry. destruct (beqb k k_enum) eqn:B; auto. apply beqb_eq in B. contradiction.
  - cbn [app]. rewrite vat_norm_idx, G. apply IH, Nw.
Qed.
Lemma norm_resolved u v p t : resolved u v p t -> vat (vnorm u v) p = Some (VStr t).
Proof.
  intros [q b m s W G|q b c m s W B G]; rewrite (norm_within _ _ _ _ _ W) by (cbn; tauto); rewrite vat_norm_key, G; cbn [norm_entry].
  - change (beqb (s2b "id") k_id) with true. cbn [vat]. unfold base_in. change k_id with (s2b "id"). rewrite G. reflexivity.
  - change (beqb (s2b "$ref") k_id) with false. change (beqb (s2b "$ref") k_ref) with true. apply based_base in B. subst. reflexivity.
Qed.
Lemma norm_scalar u v : scalar v -> vnorm u v = v.
Proof. destruct v; cbn; tauto. Qed.
Lemma norm_kept p : forall u v x, vat v p = Some x -> scalar x -> (forall t, ~ resolved u v p t) -> vat (vnorm u v) p = Some x.
Proof.
  induction p as [|e p IH]; intros u v x A Sx N.
  - cbn in A. injection A as ->. rewrite norm_scalar; auto.
  - destruct v as [| | | | | |l|m|]; destruct e as [k|i]; try discriminate A.
    + rewrite vat_norm_idx. cbn [vat vchild] in A. destruct (nth_error l (N.to_nat i)) as [w|] eqn:G; [|discriminate].
      apply IH; auto. intros t H. apply (N t). destruct H as [q b m t0 W G0|q b c m t0 W B G0].
      * apply (resolved_id u (VList l) (PIdx i :: q) b m t0); [econstructor; eauto|auto].
      * apply (resolved_ref u (VList l) (PIdx i :: q) b c m t0); [econstructor; eauto|auto|auto].
    + rewrite vat_norm_key. cbn [vat vchild] in A. destruct (mget k m) as [w|] eqn:G; [|discriminate].
      assert (Str : forall t, w = VStr t -> vat (norm_entry (vnorm (base_in u m)) (base_in u m) (is_reference m) k w) p = Some x).
      { intros t ->. destruct p; [|destruct p0; discriminate]. cbn in A. injection A as <-. cbn [norm_entry].
        destruct (beqb k k_id) eqn:B; [apply beqb_eq in B; subst; destruct (N (resolve_uri u t)); apply (resolved_id u (VMap m) [] u m t); [constructor|exact G]|].
        destruct (beqb k k_ref) eqn:B2; [apply beqb_eq in B2; subst; destruct (N (resolve_uri (base_in u m) t)); apply (resolved_ref u (VMap m) [] u _ m t); [constructor|apply base_based|exact G]|].
        reflexivity. }
      destruct (is_reference m || beqb k k_enum)%bool eqn:Q.
      * destruct w; try (eapply Str; reflexivity); unfold norm_entry; rewrite Q; exact A.
      * apply orb_false_iff in Q. destruct Q as [Q1 Q2]. assert (H : vat (vnorm (base_in u m) w) p = Some x).
        { apply IH; auto. intros t H. apply (N t). assert (Nk : k <> s2b "enum") by (intros ->; discriminate Q2). assert (Nr := is_ref m Q1). assert (Bm := base_based u m).
          destruct H as [q b m0 t0 W G0|q b c m0 t0 W B G0].
          - apply (resolved_id u (VMap m) (PKey k :: q) b m0 t0); [econstructor; eauto|auto].
          - apply (resolved_ref u (VMap m) (PKey k :: q) b c m0 t0); [econstructor; eauto|auto|auto]. }
        unfold norm_entry. rewrite Q1, Q2. destruct w; try exact H. eapply Str; reflexivity.
Qed.
Lemma outline_refl v : same_outline v v.
Proof. destruct v; cbn; auto. Qed.
Lemma outline_norm u v : same_outline v (vnorm u v).
Proof. destruct v; cbn; auto; [symmetry; apply map_length|]. unfold mkeys. rewrite map_map. reflexivity. Qed.
Lemma norm_outline p : forall u v, match vat v p, vat (vnorm u v) p with Some x, Some x' => same_outline x x' | None, None => True | _, _ => False end.
Proof.
  induction p as [|e p IH]; intros u v; [cbn; apply outline_norm|].
  assert (Same : forall w, match vat w p, vat w p with Some x, Some x' => same_outline x x' | None, None => True | _, _ => False end) by (intros w; destruct (vat w p); auto; apply outline_refl).
  destruct v as [| | | | | |l|m|]; destruct e as [k|i]; try (cbn; tauto).
  - rewrite vat_norm_idx. cbn [vat vchild]. destruct (nth_error l (N.to_nat i)); [apply IH|exact Logic.I].
  - rewrite vat_norm_key. cbn [vat vchild]. destruct (mget k m) as [w|]; [|exact Logic.I]. unfold norm_entry.
    destruct w; try (destruct (is_reference m || beqb k k_enum)%bool; [apply Same|apply IH]; fail).
    assert (Z : forall a b, match vat (VStr a) p, vat (VStr b) p with Some x, Some x' => same_outline x x' | None, None => True | _, _ => False end) by (intros a b; destruct p as [|[]]; exact Logic.I).
    destruct (beqb k k_id); [|destruct (beqb k k_ref)]; apply Z.
Qed.

(** ** Normalising again *)
(** A URI that stays what it is, whatever it is resolved against. *)
Definition settled (t : bytes) : Prop := forall b, parse_uri b <> None -> resolve_uri b t = t.
Lemma settled_parses t : settled t -> parse_uri t <> None.
Proof.
  intros H E. assert (X : resolve_uri [] t = t) by (apply H; discriminate). unfold resolve_uri in X. rewrite E in X.
  destruct (parse_uri []); subst t; discriminate E.
Qed.
Lemma norm_settled v : forall u, (forall p t, resolved u v p t -> exists t0, vat v p = Some (VStr t0) /\ settled t0) -> vsorted v -> parse_uri u <> None -> vnorm u v = v.
Proof.
  induction v as [| | | | | |l IH|m IH|] using value_ind'; intros u H K P; try reflexivity.
  - cbn [vnorm]. f_equal. apply vsorted_list in K.
    assert (X : forall i x, nth_error l i = Some x -> vnorm u x = x).
    { intros i x G. rewrite Forall_forall in IH, K. apply (IH x (nth_error_In _ _ G)); auto; [|apply K, (nth_error_In _ _ G)].
      intros p t R. destruct (H (PIdx (N.of_nat i) :: p) t) as (t0 & A & S0).
      - destruct R as [q b m0 t0 W G0|q b c m0 t0 W B G0].
        + apply (resolved_id u (VList l) (PIdx (N.of_nat i) :: q) b m0 t0); [econstructor; rewrite ?Nat2N.id; eauto|auto].
        + apply (resolved_ref u (VList l) (PIdx (N.of_nat i) :: q) b c m0 t0); [econstructor; rewrite ?Nat2N.id; eauto|auto|auto].
      - exists t0. split; auto. cbn [vat vchild] in A. rewrite Nat2N.id, G in A. exact A. }
    clear - X. induction l as [|x l IHl]; cbn; auto. rewrite (X 0%nat x eq_refl), IHl; auto. intros i y G. apply (X (S i) y G).
  - cbn [vnorm]. f_equal. apply vsorted_map in K. destruct K as [Ks Kf].
    assert (Hid : forall t, mget (s2b "id") m = Some (VStr t) -> settled t).
    { intros t G. destruct (H [PKey (s2b "id")] (resolve_uri u t)) as (t0 & A & S0); [apply (resolved_id u (VMap m) [] u m t); [constructor|exact G]|].
      cbn [vat vchild] in A. rewrite G in A. injection A as ->. exact S0. }
    assert (Hb : base_in u m = u \/ exists t, mget (s2b "id") m = Some (VStr t) /\ base_in u m = t /\ settled t).
    { unfold base_in, k_id. destruct (mget (s2b "id") m) as [[]|] eqn:G; auto. right. exists s. assert (Ss := Hid s eq_refl). split; auto. }
    assert (Pb : parse_uri (base_in u m) <> None).
    { destruct Hb as [->|(t & _ & -> & S0)]; [exact P|apply settled_parses, S0]. }
    assert (X : forall k x, mget k m = Some x -> norm_entry (vnorm (base_in u m)) (base_in u m) (is_reference m) k x = x).
    { intros k x G. assert (Str : forall t, x = VStr t -> norm_entry (vnorm (base_in u m)) (base_in u m) (is_reference m) k x = x).
      { intros t ->. cbn [norm_entry]. destruct (beqb k k_id) eqn:B.
        - apply beqb_eq in B. subst. unfold base_in. rewrite G. rewrite (Hid t G u P). reflexivity.
        - destruct (beqb k k_ref) eqn:B2; auto. apply beqb_eq in B2. subst. f_equal.
          destruct (H [PKey (s2b "$ref")] (resolve_uri (base_in u m) t)) as (t0 & A & S0); [apply (resolved_ref u (VMap m) [] u _ m t); [constructor|apply base_based|exact G]|].
          cbn [vat vchild] in A. change k_ref with (s2b "$ref") in G. rewrite G in A. injection A as ->. apply S0, Pb. }
      destruct (is_reference m || beqb k k_enum)%bool eqn:Q.
      - destruct x; try (eapply Str; reflexivity); unfold norm_entry; rewrite Q; reflexivity.
      - assert (R : norm_entry (vnorm (base_in u m)) (base_in u m) (is_reference m) k x = x \/ vnorm (base_in u m) x = x).
        { destruct x; try (left; eapply Str; reflexivity); right; (apply orb_false_iff in Q; destruct Q as [Q1 Q2]; assert (Nk : k <> s2b "enum") by (intros ->; discriminate Q2);
            assert (Nr := is_ref m Q1); assert (Bm := base_based u m); rewrite Forall_forall in IH, Kf; assert (I := mget_In _ _ _ G); apply (IH _ I); [|apply (Kf _ I)|exact Pb];
            intros p t R; destruct (H (PKey k :: p) t) as (t0 & A & S0);
            [ destruct R as [q b1 m1 t1 W G0|q b1 c1 m1 t1 W B1 G0];
              [ apply (resolved_id u (VMap m) (PKey k :: q) b1 m1 t1); [exact (within_key u m _ k _ q b1 (VMap m1) Bm Nr Nk G W)|auto]
              | apply (resolved_ref u (VMap m) (PKey k :: q) b1 c1 m1 t1); [exact (within_key u m _ k _ q b1 (VMap m1) Bm Nr Nk G W)|auto|auto] ]
            | exists t0; split; [|exact S0]; cbn [vat vchild] in A; rewrite G in A; exact A ]). }
        destruct R as [R|R]; auto. destruct x; try (eapply Str; reflexivity); unfold norm_entry; rewrite Q; exact R. }
    apply msorted_ext; [apply msorted_map_snd, Ks|exact Ks|]. intros k. rewrite mget_map_snd. destruct (mget k m) as [x|] eqn:G; auto. rewrite (X k x G). reflexivity.
Qed.
