(** SchemaValidate as it is called, on schemas and data that are trees. *)
From Verif Require Import Base Float Value Blob Path Numeric Heap HeapProofs HeapSpec SharingProofs ValueOps HeapTree HeapErase HeapTreeFacts
  Uri P_Uri Pointer PointerWalk PointerSem PointerText P_Pointer ExtValue Schema SchemaLoad SchemaLoadFrame SchemaNorm SchemaLoadTree SchemaLoadSem SchemaNormFacts.
Open Scope N_scope.

(** ** What adding a schema makes known *)
(** The objects of a schema that are searched for ids: not in lists and not in "enum". *)
Inductive nested : value -> path -> value -> Prop :=
| nested_here v : nested v [] v
| nested_key m k x p w : mget k m = Some x -> k <> s2b "enum" -> nested x p w -> nested (VMap m) (PKey k :: p) w.
Definition identified (w : value) (k : bytes) : Prop := exists m, w = VMap m /\ mget (s2b "id") m = Some (VStr k).
(** The ids that a schema from [uri] may have: those in its directory, if it is one, and its parts. *)
Definition may_name (uri k : bytes) : Prop :=
  exists r, k = uri ++ r /\ ((exists x, uri = x ++ s2b "/") \/ (exists x, r = "#"%char :: x \/ r = "?"%char :: x)).
(** The loader knew [before]; the normalised schema [v] of [uri] was added; now it knows [after]. *)
Record registers (before : vschemas) (uri : bytes) (v : value) (after : vschemas) : Prop := {
  reg_keeps : forall k x, before k = Some x -> after k = Some x;
  reg_names : before uri = None -> after uri = Some v;
  reg_only : forall k w, after k = Some w -> before k = None -> k <> uri -> may_name uri k /\ exists p, nested v p w /\ identified w k;
  reg_all : forall k p w, nested v p w -> identified w k -> may_name uri k -> exists x, after k = Some x }.

Lemma remainder_app u r : remainder u (u ++ r) = Some r.
Proof. induction u as [|a u IH]; cbn; auto. rewrite aeqb_refl. exact IH. Qed.
Lemma remainder_some u k r : remainder u k = Some r -> k = u ++ r.
Proof.
  revert k; induction u as [|a u IH]; intros k; cbn; [congruence|]. destruct k as [|b k]; [discriminate|]. destruct (aeqb a b) eqn:E; [|discriminate].
  apply aeqb_eq in E. subst. intros H. rewrite (IH _ H). reflexivity.
Qed.
Lemma trusted_iff uri k : trusted uri k = true <-> may_name uri k.
Proof.
  unfold trusted, may_name. split.
  - destruct (remainder uri k) as [r|] eqn:R; [|discriminate]. intros H. exists r. split; [apply remainder_some, R|]. apply orb_true_iff in H. destruct H as [H|H].
    + left. destruct (rev uri) as [|c x] eqn:E; [discriminate|]. apply aeqb_eq in H. subst. exists (rev x). rewrite <- (rev_involutive uri), E. reflexivity.
    + right. destruct r as [|c x]; [discriminate|]. exists x. apply orb_true_iff in H. destruct H as [H|H]; apply aeqb_eq in H; subst; auto.
  - intros (r & -> & H). rewrite remainder_app. apply orb_true_iff. destruct H as [[x ->]|[x [-> | ->]]]; [left|right; reflexivity..].
    rewrite rev_app_distr. reflexivity.
Qed.
Lemma vsearch_sound k v : vsorted v -> forall w, vsearch k v = Some w -> exists p, nested v p w /\ identified w k.
Proof.
  induction v as [| | | | | |l IH|m IH|] using value_ind'; intros K w H; try discriminate H. rewrite vsearch_VMap in H.
  destruct (match text_in k_id m with Some t => beqb t k | None => false end) eqn:T.
  - injection H as <-. exists []. split; [constructor|]. exists m. split; [reflexivity|].
    unfold text_in, k_id in T. destruct (mget (s2b "id") m) as [[]|]; try discriminate T. apply beqb_eq in T. subst. reflexivity.
  - clear T. revert H. apply vsorted_map in K. destruct K as [Ks Kf].
    assert (X : forall m', incl m' m -> vsearch_in k m' = Some w -> exists p, nested (VMap m) p w /\ identified w k).
    { induction m' as [|[k' x] m' IHm]; intros I H; [discriminate|]. cbn [vsearch_in] in H.
      destruct (if not_enum k' then vsearch k x else None) as [r|] eqn:E; [|apply IHm; auto; intros z Hz; apply I; right; exact Hz].
      injection H as ->. unfold not_enum in E. destruct (beqb k' k_enum) eqn:B2; [discriminate|]. cbn in E. assert (Ix := I _ (or_introl eq_refl)).
      rewrite Forall_forall in IH, Kf. destruct (IH _ Ix (Kf _ Ix) w E) as (p & Np & Hp). exists (PKey k' :: p). split; [|exact Hp].
      apply (nested_key m k' x p w); [apply In_mget; auto|intros ->; discriminate B2|exact Np]. }
    apply X. intros z Hz; exact Hz.
Qed.
Lemma vsearch_complete k v p w : nested v p w -> identified w k -> exists x, vsearch k v = Some x.
Proof.
  induction 1 as [v|m k0 x p w G Ne N IH]; intros Id.
  - destruct Id as (m & -> & G). exists (VMap m). rewrite vsearch_VMap. unfold text_in, k_id. rewrite G, beqb_refl. reflexivity.
  - destruct (IH Id) as (y & Hy). rewrite vsearch_VMap. destruct (match text_in k_id m with Some t => beqb t k | None => false end); [eauto|].
    clear IH. revert G. induction m as [|[k1 z] m IHm]; cbn [mget vsearch_in]; [discriminate|]. destruct (beqb k0 k1) eqn:B.
    + intros [= ->]. apply beqb_eq in B. subst k1. unfold not_enum. destruct (beqb k0 k_enum) eqn:B2; [apply beqb_eq in B2; contradiction|]. cbn. rewrite Hy. eauto.
    + intros G. destruct (if not_enum k1 then vsearch k z else None); eauto.
Qed.
Lemma with_registers before uri v : vsorted v -> registers before uri v (with_schema before uri v).
Proof.
  intros K. split; unfold with_schema.
  - intros k x ->. reflexivity.
  - intros ->. rewrite beqb_refl. reflexivity.
  - intros k w H Hb N. rewrite Hb in H. destruct (beqb k uri) eqn:B; [apply beqb_eq in B; contradiction|]. unfold only in H. destruct (trusted uri k) eqn:T; [|discriminate].
    split; [apply trusted_iff, T|]. apply vsearch_sound; auto.
  - intros k p w Np Id My. destruct (before k); eauto. destruct (beqb k uri); eauto. apply trusted_iff in My. unfold only. rewrite My. eapply vsearch_complete; eauto.
Qed.

(** ** Parts of a value *)
Lemma vat_app v p q : vat v (p ++ q) = match vat v p with Some w => vat w q | None => None end.
Proof. revert v; induction p as [|e p IH]; intros v; cbn [app vat]; auto. destruct (vchild v e); auto. Qed.
Lemma vat_depth p : forall v w, vat v p = Some w -> (vdepth w <= vdepth v)%nat.
Proof.
  induction p as [|e p IH]; intros v w; cbn [vat]; [intros [= ->]; lia|]. destruct (vchild v e) as [x|] eqn:E; [|discriminate]. intros H. apply IH in H.
  destruct v as [| | | | | |l|m|]; destruct e; try discriminate E; cbn [vchild] in E.
  - rewrite vdepth_VList. apply vdepth_nth in E. lia.
  - rewrite vdepth_VMap. apply vdepth_get in E. lia.
Qed.
Lemma vat_fit p v w : vat v p = Some w -> lists_fit v -> lists_fit w.
Proof. intros A L q vs H. apply (L (p ++ q)). rewrite vat_app, A. exact H. Qed.
Lemma nested_vat v p w : nested v p w -> vat v p = Some w.
Proof. induction 1; cbn [vat vchild]; auto. rewrite H. exact IHnested. Qed.
Lemma locates_vat v ks p w : locates v ks p w -> vat v p = Some w.
Proof. induction 1 as [|m k w ks p x G L IH|vs i w ks p x G L IH]; cbn [vat vchild]; auto; rewrite G; exact IH. Qed.
Lemma norm_fit u v : lists_fit v -> lists_fit (vnorm u v).
Proof.
  intros L q vs H. assert (O := norm_outline q u v). rewrite H in O. destruct (vat v q) as [x|] eqn:A; [|destruct O]. destruct x; cbn in O; try tauto.
  rewrite <- O. eapply L, A.
Qed.

(** ** The schema that is used *)
Inductive chosen : value -> value -> value -> Prop :=
| chosen_given s d : s <> VNull -> (forall u, s <> VStr u) -> chosen s d s
| chosen_named m u : mget (s2b "$schema") m = Some (VStr u) -> chosen VNull (VMap m) (VMap [(s2b "$ref", VStr u)])
| chosen_none d : (forall m, d = VMap m -> mget (s2b "$schema") m = None) -> chosen VNull d VNull.
Definition shallow (n : nat) (vld : list vschemas) : Prop := forall own k v, In own vld -> own k = Some v -> (vdepth v <= n)%nat.
Lemma shallow_found n vld u w : found vld u w -> shallow n vld -> (vdepth w <= n)%nat.
Proof.
  induction 1 as [own up u v G|own up u b t ks p v w G P Gb En Lw|own up u b t w G P Gb H IH]; intros S.
  - eapply S; [left; reflexivity|exact G].
  - apply locates_vat, vat_depth in Lw. assert (X := S own b v (or_introl eq_refl) Gb). lia.
  - apply IH. intros o k v I. apply S. right. exact I.
Qed.

Lemma choose_tree st ld s cs Fs d cd Fd s0 vld n : owns (h_heap st) s cs Fs -> NoDup Fs -> owns (h_heap st) d cd Fd ->
  (forall x, In x Fs -> ~ In x Fd) -> Forall2 (stocked (h_heap st) Fs) ld vld -> (vdepth s <= n)%nat -> (2 <= n)%nat -> chosen s d s0 ->
  exists c st1 F0, choose_schema ld cs cd st = (Ok c, st1) /\ h_vars st1 = h_vars st /\ owns (h_heap st1) s0 c F0 /\ NoDup F0 /\ owns (h_heap st1) d cd Fd /\
    (forall x, In x F0 -> ~ In x Fd) /\ Forall2 (stocked (h_heap st1) F0) ld vld /\ (vdepth s0 <= n)%nat.
Proof.
  intros O N Od Dj S D D2 Ch. destruct Ch as [s d Nn Ns|m u G|d Nd].
  - exists cs, st, Fs. split; [|split; [reflexivity|repeat (split; [assumption|]); assumption]]. unfold choose_schema.
    destruct s as [| | | | |z| | |], cs; cbn [owns] in O; try tauto; try congruence; try reflexivity; destruct (Ns z); reflexivity.
  - destruct cs; cbn [owns] in O; try tauto. subst Fs. destruct cd; cbn [owns] in Od; try tauto. change (owns (h_heap st) (VMap m) (CMap s) Fd) in Od.
    destruct (owns_map_get _ _ _ _ _ _ Od G) as (cm & cu & fu & Ec & Gc & Ou). destruct cu; cbn [owns] in Ou; try tauto. destruct Ou as [Eu _].
    set (st1 := HState (h_vars st) (h_heap st ++ [StMap [(k_ref, CStr s0)]])).
    assert (Ex : extends st st1) by (split; [reflexivity|eexists; reflexivity]).
    exists (CMap (hlen st)), st1, [hlen st]. split.
    { unfold choose_schema. unfold bind at 1. rewrite (bind_get_map _ _ _ _ Ec). change k_schema with (s2b "$schema"). rewrite Gc. rewrite local_ref. reflexivity. }
    split; [reflexivity|]. split.
    { apply owns_VMap. exists [(k_ref, CStr s0)], [[]]. split; [apply nth_last|]. split; [reflexivity|]. split; [cbn; tauto|]. split; [reflexivity|].
      cbn [List.map owns_list snd owns]. split; [|exact Logic.I]. split; [|reflexivity]. eapply extends_nth'; eauto. }
    split; [constructor; [intros []|constructor]|]. split; [eapply extends_owns; eauto|].
    assert (Lt : forall v c F, owns (h_heap st) v c F -> ~ In (hlen st) F) by (intros v c F Ov I; apply (owns_lt _ _ _ _ _ Ov) in I; unfold hlen in I; lia).
    split; [intros x [<-|[]]; apply (Lt _ _ _ Od)|]. split; [|cbn; lia].
    clear - S Ex. induction S as [|own vo ld vl So S IH]; constructor; auto. eapply stocked_frame; [| | |exact So].
    + intros s x E _. eapply extends_nth'; eauto.
    + intros s L _. apply (extends_nth _ _ _ Ex L).
    + intros s L [<-|[]]. unfold hlen in L. lia.
  - destruct cs; cbn [owns] in O; try tauto. subst Fs. exists CNull, st, []. split; [|split; [reflexivity|split; [reflexivity|split; [constructor|split; [exact Od|split; [intros x []|split; [exact S|exact D]]]]]]].
    unfold choose_schema. destruct cd; try reflexivity. destruct d as [| | | | | | |md|]; cbn [owns] in Od; try tauto. change (owns (h_heap st) (VMap md) (CMap s) Fd) in Od.
    destruct (owns_map_none _ _ _ _ k_schema Od (Nd _ eq_refl)) as (cm & Ec & Gc). unfold bind at 1. rewrite (bind_get_map _ _ _ _ Ec), Gc. reflexivity.
Qed.

(** SchemaValidate on trees: the validation of the normalised schema, with a loader that knows it. *)
Lemma call_tree rx fuel n st meta up vmeta vup s cs Fs d cd Fd s0 : owns (h_heap st) s cs Fs -> NoDup Fs -> owns (h_heap st) d cd Fd ->
  (forall x, In x Fs -> ~ In x Fd) -> Forall2 (stocked (h_heap st) Fs) (new_loader meta up) (vmeta :: vup) ->
  (vdepth s <= n)%nat -> (vdepth d <= n)%nat -> (2 <= n)%nat -> shallow n (vmeta :: vup) -> lists_fit s -> fits (vmeta :: vup) -> chosen s d s0 ->
  exists known L st', validate_top rx fuel n meta up cs cd st = (schema_validate rx L fuel (vnorm [] s0) d, st') /\
    owns (h_heap st') d cd Fd /\ registers vmeta [] (vnorm [] s0) known /\
    (forall u w, found (known :: vup) u w -> L u = Ok w) /\ (forall u, missing (known :: vup) u -> L u = Throw RuntimeError).
Proof.
  intros O N Od Dj S Ds Dd D2 Sh Ls Ft Ch.
  destruct (choose_tree st (new_loader meta up) s cs Fs d cd Fd s0 (vmeta :: vup) n O N Od Dj S Ds D2 Ch) as (c & st1 & F0 & E1 & V1 & O1 & N1 & Od1 & Dj1 & S1 & D0).
  unfold new_loader in S1. inversion S1 as [|? ? ? ? So Su]; subst.
  destruct (add_tree st1 s0 c F0 n [meta] up [] vmeta vup O1 N1 D0) as (st2 & own' & F' & E2 & V2 & Ms & O2 & N2 & _ & H2 & K2 & S2); auto.
  { rewrite vnorm_depth. exact D0. } { destruct meta; cbn; tauto. }
  change (resolve_uri [] []) with (@nil ascii) in *. exists (with_schema vmeta [] (vnorm [] s0)).
  assert (Od2 : owns (h_heap st2) d cd Fd).
  { eapply owns_frame; [exact K2| |exact Od1]. intros x Hx. apply H2; [eapply owns_lt; eauto|]. intros I. apply (Dj1 x I Hx). }
  set (L := fun u => fst ((let* c := get_schema (own' :: up) u in read_out n c) st2)). exists L, st2. split.
  { unfold validate_top, prepare. unfold bind at 1. unfold bind at 1. rewrite E1. unfold bind at 1. rewrite E2. cbn [ret fst snd].
    rewrite (bind_ok _ _ _ _ _ (read_out_reads n st2 (vnorm [] s0) c (owns_reads _ _ _ _ O2) ltac:(rewrite vnorm_depth; exact D0))).
    rewrite (bind_ok _ _ _ _ _ (read_out_reads n st2 d cd (owns_reads _ _ _ _ Od2) Dd)). reflexivity. }
  assert (Vs : vsorted (vnorm [] s0)) by (eapply owns_sorted; exact O2). assert (R := with_registers vmeta [] (vnorm [] s0) Vs). split; [exact Od2|]. split; [exact R|].
  assert (L0 : lists_fit s0).
  { destruct Ch as [s d _ _|m u _|d _]; [exact Ls| |]; intros q vs H; destruct q as [|e q]; try discriminate H.
    destruct e as [k|i]; cbn [vat vchild mget] in H; [|discriminate]. destruct (beqb k (s2b "$ref")); [|discriminate]. destruct q as [|[]]; discriminate H. }
  assert (Parts : forall k w, with_schema vmeta [] (vnorm [] s0) k = Some w -> vmeta k = Some w \/ exists p, vat (vnorm [] s0) p = Some w).
  { intros k w H. destruct (vmeta k) as [x|] eqn:G; [left; rewrite <- H; symmetry; apply (reg_keeps _ _ _ _ R); exact G|right].
    destruct (beqb k []) eqn:B.
    - apply beqb_eq in B. subst k. rewrite (reg_names _ _ _ _ R G) in H. injection H as <-. exists []. reflexivity.
    - destruct (reg_only _ _ _ _ R k w H G) as (_ & p & Np & _); [intros ->; rewrite beqb_refl in B; discriminate|]. exists p. apply nested_vat, Np. }
  assert (Ft2 : fits (with_schema vmeta [] (vnorm [] s0) :: vup)).
  { intros o k v [<-|I] H; [|apply (Ft o k v (or_intror I) H)]. destruct (Parts k v H) as [G|[p A]]; [apply (Ft _ _ _ (or_introl eq_refl) G)|].
    eapply vat_fit; [exact A|]. apply norm_fit, L0. }
  assert (Sh2 : shallow n (with_schema vmeta [] (vnorm [] s0) :: vup)).
  { intros o k v [<-|I] H; [|apply (Sh o k v (or_intror I) H)]. destruct (Parts k v H) as [G|[p A]]; [apply (Sh _ _ _ (or_introl eq_refl) G)|].
    apply vat_depth in A. rewrite vnorm_depth in A. lia. }
  split.
  - intros u w Fw. destruct (get_found _ _ _ Fw st2 [] (own' :: up) S2 Ft2) as (cw & Fc & Eg & Ow & _). unfold L. rewrite (bind_ok _ _ _ _ _ Eg).
    rewrite (read_out_reads n st2 w cw (owns_reads _ _ _ _ Ow) (shallow_found _ _ _ _ Fw Sh2)). reflexivity.
  - intros u Mu. unfold L. rewrite (bind_throw _ _ _ _ _ (get_missing _ _ Mu st2 [] (own' :: up) S2 Ft2)). reflexivity.
Qed.
