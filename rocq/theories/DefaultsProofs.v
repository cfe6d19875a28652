(** What AddSchemaDefaults keeps, where what it adds is from, and when once is enough. *)
From Verif Require Import Base Value Path ValueOps ParserInput DiffRun Schema SchemaSem SchemaProofs Defaults DefaultsSem.
Open Scope N_scope.

(** ** What the claim is about *)

(** What may become of something that was there. *)
Definition kept (v v' : value) : Prop :=
  match v, v' with
  | VNull, _ => True
  | VList l, VList l' => (List.length l <= List.length l')%nat
  | VMap _, VMap _ => True
  | _, _ => v = v'
  end.
(** The schemas that a schema leads to. *)
Inductive reach (get_schema : bytes -> res value) (s : value) : value -> Prop :=
| reach_self : reach get_schema s s
| reach_ref m u t : reach get_schema s (VMap m) -> kw "$ref" m = Some (VStr u) -> get_schema u = Ok t -> reach get_schema s t
| reach_property m ps k t : reach get_schema s (VMap m) -> kw "properties" m = Some (VMap ps) -> In (k, t) ps -> reach get_schema s t
| reach_items m l t : reach get_schema s (VMap m) -> kw "items" m = Some (VList l) -> In t l -> reach get_schema s t
| reach_item m t : reach get_schema s (VMap m) -> kw "items" m = Some t -> reach get_schema s t
| reach_list m k l t : reach get_schema s (VMap m) -> In k ["allOf"; "oneOf"; "anyOf"]%string -> kw k m = Some (VList l) -> In t l -> reach get_schema s t.
Definition scalar (v : value) : Prop := match v with VNull | VList _ | VMap _ => False | _ => True end.
(** Something in a default of a schema that [s] leads to. *)
Definition from_default (get_schema : bytes -> res value) (s w : value) : Prop :=
  exists m x r, reach get_schema s (VMap m) /\ kw "default" m = Some x /\ vat x r = Some w.
(** Schemas that say one thing about a place: a default, a reference, or what the parts are. *)
Inductive simple (get_schema : bytes -> res value) : value -> Prop :=
| simple_other s : (forall m, s <> VMap m) -> simple get_schema s
| simple_default m x : kw "default" m = Some x -> absent m ["$ref"; "properties"; "items"; "allOf"; "oneOf"; "anyOf"]%string -> simple get_schema (VMap m)
| simple_ref m u t : kw "$ref" m = Some (VStr u) -> get_schema u = Ok t -> simple get_schema t ->
    absent m ["default"; "properties"; "items"; "allOf"; "oneOf"; "anyOf"]%string -> simple get_schema (VMap m)
| simple_parts m : absent m ["$ref"; "default"; "allOf"; "oneOf"; "anyOf"]%string ->
    (forall ps, kw "properties" m = Some ps -> exists l, ps = VMap l) ->
    (forall l k t, kw "properties" m = Some (VMap l) -> In (k, t) l -> simple get_schema t) ->
    (forall l t, kw "items" m = Some (VList l) -> In t l -> simple get_schema t) ->
    (forall t, kw "items" m = Some t -> (forall l, t <> VList l) -> simple get_schema t) -> simple get_schema (VMap m).

(** The schema alone says that the default of place [q] is [x]. *)
Inductive says (get_schema : bytes -> res value) : value -> path -> value -> Prop :=
| says_default m x : kw "$ref" m = None -> kw "default" m = Some x -> says get_schema (VMap m) [] x
| says_ref m u t q x : kw "$ref" m = Some (VStr u) -> get_schema u = Ok t -> absent m ["default"; "properties"; "items"; "allOf"; "oneOf"; "anyOf"]%string ->
    says get_schema t q x -> says get_schema (VMap m) q x
| says_property m ps k t q x : absent m ["$ref"; "default"; "allOf"; "oneOf"; "anyOf"]%string -> kw "properties" m = Some (VMap ps) -> In (k, t) ps ->
    says get_schema t q x -> says get_schema (VMap m) (PKey k :: q) x
| says_items m l i t q x : absent m ["$ref"; "default"; "properties"; "allOf"; "oneOf"; "anyOf"]%string -> kw "items" m = Some (VList l) ->
    N.of_nat (List.length l) < 2 ^ 32 -> nth_error l (N.to_nat i) = Some t -> says get_schema t q x -> says get_schema (VMap m) (PIdx i :: q) x
| says_item m t q x : absent m ["$ref"; "default"; "properties"; "allOf"; "oneOf"; "anyOf"]%string -> kw "items" m = Some t -> (forall l, t <> VList l) ->
    says get_schema t q x -> says get_schema (VMap m) (PIdx 0 :: q) x.
(** The schema, with all it leads to, has a default [x] for place [q]. *)
Inductive gives (get_schema : bytes -> res value) : value -> path -> value -> Prop :=
| gives_default m x : kw "default" m = Some x -> gives get_schema (VMap m) [] x
| gives_ref m u t q x : kw "$ref" m = Some (VStr u) -> get_schema u = Ok t -> gives get_schema t q x -> gives get_schema (VMap m) q x
| gives_property m ps k t q x : kw "properties" m = Some (VMap ps) -> In (k, t) ps -> gives get_schema t q x -> gives get_schema (VMap m) (PKey k :: q) x
| gives_items m l i t q x : kw "items" m = Some (VList l) -> N.of_nat (List.length l) < 2 ^ 32 -> nth_error l (N.to_nat i) = Some t ->
    gives get_schema t q x -> gives get_schema (VMap m) (PIdx i :: q) x
| gives_item m t q x : kw "items" m = Some t -> (forall l, t <> VList l) -> gives get_schema t q x -> gives get_schema (VMap m) (PIdx 0 :: q) x
| gives_list m k l t q x : kw "default" m <> Some VNull -> In k ["allOf"; "oneOf"; "anyOf"]%string -> kw k m = Some (VList l) -> In t l -> gives get_schema t q x -> gives get_schema (VMap m) q x.
(** Schemas with at most [n] one inside the other, references followed, whose references lead
    somewhere and whose properties are in a map. *)
Inductive sound (get_schema : bytes -> res value) : nat -> value -> Prop :=
| sound_other n s : (forall m, s <> VMap m) -> sound get_schema (S n) s
| sound_map n m :
    (forall u, kw "$ref" m = Some (VStr u) -> exists t, get_schema u = Ok t /\ sound get_schema n t) ->
    (forall ps, kw "properties" m = Some ps -> exists l, ps = VMap l /\ forall k t, In (k, t) l -> sound get_schema n t) ->
    (forall l t, kw "items" m = Some (VList l) -> In t l -> sound get_schema n t) ->
    (forall t, kw "items" m = Some t -> (forall l, t <> VList l) -> sound get_schema n t) ->
    (forall k l t, In k ["allOf"; "oneOf"; "anyOf"]%string -> kw k m = Some (VList l) -> In t l -> sound get_schema n t) ->
    sound get_schema (S n) (VMap m).

(** ** Relations between a place before and after *)

Definition oat (o : slot) (q : path) : slot := match o with Some v => vat v q | None => None end.

Section Relation.
  Variable get_schema : bytes -> res value.
  Hypothesis sorted_schemas : forall u s, get_schema u = Ok s -> vsorted s.
  (** Schemas closed under what they lead to, and their defaults. *)
  Variables T D : value -> Prop.
  Hypothesis T_sorted : forall s, T s -> vsorted s.
  Hypothesis T_default : forall m x, T (VMap m) -> kw "default" m = Some x -> D x.
  Hypothesis T_ref : forall m u t, T (VMap m) -> kw "$ref" m = Some (VStr u) -> get_schema u = Ok t -> T t.
  Hypothesis T_property : forall m ps k t, T (VMap m) -> kw "properties" m = Some (VMap ps) -> In (k, t) ps -> T t.
  Hypothesis T_items : forall m l t, T (VMap m) -> kw "items" m = Some (VList l) -> In t l -> T t.
  Hypothesis T_item : forall m t, T (VMap m) -> kw "items" m = Some t -> T t.
  Hypothesis T_list : forall m k l t, T (VMap m) -> In k ["allOf"; "oneOf"; "anyOf"]%string -> kw k m = Some (VList l) -> In t l -> T t.
  Variable R : slot -> slot -> Prop.
  Hypothesis R_refl : forall o, R o o.
  Hypothesis R_trans : forall o1 o2 o3, R o1 o2 -> R o2 o3 -> R o1 o3.
  Hypothesis R_default : forall o x, is_absent o = true -> D x -> R o (Some x).
  Hypothesis R_inner : forall e o c o', osorted o -> fits e o -> R (child o e) c -> set_in o e c = Ok o' -> R o o'.

  Lemma child_sorted o e : osorted o -> osorted (child o e).
  Proof. destruct o as [v|]; [|intros _; exact I]. cbn. destruct (vchild v e) eqn:C; [|intros; exact I]. intros S. eapply vsorted_child; eauto. Qed.

  Lemma local_rel fuel : forall s o o', T s -> osorted o -> local get_schema fuel s o = Ok o' -> R o o'.
  Proof.
    induction fuel as [|f IH]; intros s o o' Ts So E; [discriminate|]. cbn [local] in E. destruct s as [| | | | | | |m|]; try (injection E as <-; apply R_refl).
    pose proof (fun s => defaults_local get_schema sorted_schemas f s) as ACT.
    set (sub := local get_schema f) in *.
    assert (SUB : forall s o o', T s -> osorted o -> sub s o = Ok o' -> R o o' /\ osorted o').
    { intros s1 o1 o2 T1 S1 E1. split; [eapply IH; eauto|]. destruct (ACT s1 (T_sorted _ T1)) as [_ B]. apply (B o1 o2 S1 I E1). }
    assert (INN : forall e s o o', T s -> osorted o -> fits e o -> inner e (sub s) o = Ok o' -> R o o' /\ osorted o' /\ fits e o').
    { intros e s1 o1 o2 T1 S1 F1 E1. destruct (acts_inner e _ _ (ACT s1 (T_sorted _ T1))) as [_ B]. destruct (B o1 o2 S1 F1 E1) as (S2 & F2 & _).
      split; [|auto]. unfold inner in E1. destruct (sub s1 (child o1 e)) as [c| | | |] eqn:G; try discriminate. cbn [rbind] in E1.
      apply (R_inner e o1 c o2); auto. apply (SUB s1); auto using child_sorted. }
    assert (EACH : forall l o o', (forall t, In t l -> T t) -> osorted o -> l_each sub l o = Ok o' -> R o o' /\ osorted o').
    { induction l as [|s1 l IHl]; intros o1 o2 TL S1 E1; cbn [l_each] in E1; [injection E1 as <-; auto|].
      destruct (sub s1 o1) as [o3| | | |] eqn:G; try discriminate. cbn [rbind] in E1. destruct (SUB s1 o1 o3) as [R1 S3]; auto; [apply TL; left; reflexivity|].
      destruct (IHl o3 o2) as [R2 S2]; auto; [intros t H; apply TL; right; exact H|]. eauto. }
    assert (LIST : forall k o o', In k ["allOf"; "oneOf"; "anyOf"]%string -> osorted o -> l_list sub (key k m) o = Ok o' -> R o o' /\ osorted o').
    { intros k o1 o2 Ik S1 E1. unfold l_list in E1. destruct (key k m) as [[]|] eqn:K; try (injection E1 as <-; auto). apply (EACH l); auto. intros t H. eapply T_list; eauto. }
    assert (PROP : forall l o o', (forall k t, In (k, t) l -> T t) -> osorted o -> for_map o = true -> l_properties sub l o = Ok o' -> R o o' /\ osorted o').
    { induction l as [|[k s1] l IHl]; intros o1 o2 TL S1 F1 E1; cbn [l_properties] in E1; [injection E1 as <-; auto|].
      destruct (inner (PKey k) (sub s1) o1) as [o3| | | |] eqn:G; try discriminate. cbn [rbind] in E1.
      destruct (INN (PKey k) s1 o1 o3) as (R1 & S3 & F3); auto; [apply (TL k); left; reflexivity|apply fits_key; exact F1|].
      destruct (IHl o3 o2) as [R2 S2]; auto; [intros k' t H; apply (TL k'); right; exact H|eapply fits_key; exact F3|]. eauto. }
    assert (ITEM : forall l i o o', (forall t, In t l -> T t) -> osorted o -> for_list o = true -> l_items sub l i o = Ok o' -> R o o' /\ osorted o').
    { induction l as [|s1 l IHl]; intros i o1 o2 TL S1 F1 E1; cbn [l_items] in E1; [injection E1 as <-; auto|].
      destruct (inner (PIdx i) (sub s1) o1) as [o3| | | |] eqn:G; try discriminate. cbn [rbind] in E1.
      destruct (INN (PIdx i) s1 o1 o3) as (R1 & S3 & F3); auto; [apply TL; left; reflexivity|apply fits_idx; exact F1|].
      destruct (IHl (i + 1) o3 o2) as [R2 S2]; auto; [intros t H; apply TL; right; exact H|eapply fits_idx; exact F3|]. eauto. }
    unfold l_map in E. destruct (match key "$ref" m with Some (VStr u) => do s <- get_schema u; sub s o | _ => Ok o end) as [o1| | | |] eqn:ER; try discriminate. cbn [rbind] in E.
    assert (H1 : R o o1 /\ osorted o1).
    { destruct (key "$ref" m) as [[]|] eqn:K; try (injection ER as <-; auto). destruct (get_schema s) as [t| | | |] eqn:G; try discriminate. cbn [rbind] in ER. apply (SUB t); auto. eapply T_ref; eauto. }
    destruct H1 as [R1 S1]. apply (R_trans _ o1); [exact R1|]. clear ER R1 So o.
    assert (REST : l_rest sub m o1 = Ok o' -> R o1 o').
    { clear E. intros E. unfold l_rest in E.
      destruct (match key "properties" m with Some ps => if for_map o1 then l_props sub ps o1 else Ok o1 | None => Ok o1 end) as [o2| | | |] eqn:EP; try discriminate. cbn [rbind] in E.
      assert (H2 : R o1 o2 /\ osorted o2).
      { destruct (key "properties" m) as [ps|] eqn:K; [|injection EP as <-; auto]. destruct (for_map o1) eqn:F; [|injection EP as <-; auto].
        unfold l_props in EP. destruct ps; try discriminate; [injection EP as <-; auto|]. apply (PROP m0); auto. intros k t H. eapply T_property; eauto. }
      destruct H2 as [R2 S2]. apply (R_trans _ o2); [exact R2|]. clear EP R2.
      destruct (match key "items" m with Some s => if for_list o2 then l_item sub s o2 else Ok o2 | None => Ok o2 end) as [o3| | | |] eqn:EI; try discriminate. cbn [rbind] in E.
      assert (H3 : R o2 o3 /\ osorted o3).
      { destruct (key "items" m) as [s|] eqn:K; [|injection EI as <-; auto]. destruct (for_list o2) eqn:F; [|injection EI as <-; auto].
        assert (NL : (forall l, s <> VList l) -> R o2 o3 /\ osorted o3).
        { intros N. assert (EI' : inner (PIdx 0) (sub s) o2 = Ok o3) by (destruct s; try exact EI; destruct (N _ eq_refl)).
          destruct (INN (PIdx 0) s o2 o3) as (? & ? & _); auto; [eapply T_item; eauto|apply fits_idx; exact F]. }
        destruct s; try (apply NL; discriminate). apply (ITEM (counted l) 0); auto. intros t H. eapply T_items; eauto. unfold counted, take in H. revert H. generalize (N.to_nat (wrap32 (llen l))). clear. intros n. revert l. induction n as [|n IHn]; intros [|y l]; cbn; auto; try contradiction. intros [H|H]; eauto. }
      destruct H3 as [R3 S3]. apply (R_trans _ o3); [exact R3|]. clear EI R3.
      destruct (l_list sub (key "allOf" m) o3) as [o4| | | |] eqn:E4; try discriminate. cbn [rbind] in E. destruct (LIST "allOf"%string o3 o4) as [R4 S4]; auto; [cbn; tauto|].
      destruct (l_list sub (key "oneOf" m) o4) as [o5| | | |] eqn:E5; try discriminate. cbn [rbind] in E. destruct (LIST "oneOf"%string o4 o5) as [R5 S5]; auto; [cbn; tauto|].
      destruct (LIST "anyOf"%string o5 o') as [R6 _]; auto; [cbn; tauto|]. eauto. }
    destruct (key "default" m) as [x|] eqn:K; [|auto]. destruct (is_absent o1) eqn:AB; [|auto]. injection E as <-. apply R_default; [exact AB|]. eapply T_default; eauto.
  Qed.
End Relation.

(** ** What is kept *)

Definition keeps (o o' : slot) : Prop := forall q w, oat o q = Some w -> exists w', oat o' q = Some w' /\ kept w w'.
Lemma kept_refl v : kept v v. Proof. destruct v; cbn; auto. Qed.
Lemma kept_trans a b c : kept a b -> kept b c -> kept a c.
Proof. destruct a, b; cbn; intros H; try discriminate; try (injection H as ->); auto; destruct c; cbn; auto; try discriminate; lia. Qed.
Lemma keeps_refl o : keeps o o. Proof. intros q w E. exists w. split; [exact E|apply kept_refl]. Qed.
Lemma keeps_trans a b c : keeps a b -> keeps b c -> keeps a c.
Proof. intros H J q w E. destruct (H q w E) as (w' & E' & K). destruct (J q w' E') as (w2 & E2 & K2). exists w2. split; [exact E2|eapply kept_trans; eauto]. Qed.
Lemma keeps_default o x : is_absent o = true -> keeps o (Some x).
Proof.
  intros A q w E. destruct o as [[]|]; try discriminate. cbn [oat] in E. destruct (vat_null q) as [N| ->]; [congruence|]. injection E as <-. exists x. split; [reflexivity|exact I].
Qed.
Lemma oat_child o e q : oat (child o e) q = oat o (e :: q).
Proof. destruct o as [v|]; [|reflexivity]. cbn. destruct (vchild v e); reflexivity. Qed.
Lemma set_kept v e x v' : vset_elem v e x = Some v' -> kept v v'.
Proof. destruct e, v; try discriminate; intros E; injection E as <-; cbn [kept]; auto. rewrite vput_len. lia. Qed.
Lemma keeps_inner e o c o' : osorted o -> fits e o -> keeps (child o e) c -> set_in o e c = Ok o' -> keeps o o'.
Proof.
  intros S F K E. destruct c as [x|]; cbn [set_in] in E; [|injection E as <-; apply keeps_refl].
  destruct (vset_elem (now o) e x) as [v'|] eqn:Q; [|discriminate]. injection E as <-. destruct o as [v|]; [|intros q w H; discriminate H]. cbn [now] in Q. cbn [osorted] in S.
  intros [|f q] w H.
  - injection H as <-. exists v'. split; [reflexivity|eapply set_kept; eauto].
  - rewrite <- oat_child in H. destruct (pelem_dec f e) as [->|N].
    + destruct (K q w H) as (w' & E' & K'). exists w'. split; [|exact K']. rewrite <- oat_child. cbn [child]. rewrite (proj1 (vset_elem_child v e x v' e S Q) eq_refl). exact E'.
    + exists w. split; [|apply kept_refl]. rewrite <- oat_child. cbn [child] in *. destruct (proj2 (vset_elem_child v e x v' f S Q) N) as [->|(H1 & _)]; [exact H|]. rewrite H1 in H. discriminate H.
Qed.

(** ** What is added *)

Definition adds (P : value -> Prop) (o o' : slot) : Prop := forall q w, oat o' q = Some w -> scalar w -> oat o q = Some w \/ P w.
Lemma adds_trans P a b c : adds P a b -> adds P b c -> adds P a c.
Proof. intros H J q w E S. destruct (J q w E S) as [E'|]; auto. Qed.
Lemma adds_inner P e o c o' : osorted o -> fits e o -> adds P (child o e) c -> set_in o e c = Ok o' -> adds P o o'.
Proof.
  intros S F K E. destruct c as [x|]; cbn [set_in] in E; [|injection E as <-; intros q w H _; auto].
  destruct (vset_elem (now o) e x) as [v'|] eqn:Q; [|discriminate]. injection E as <-. pose proof (now_sorted o S) as Sn.
  intros [|f q] w H Sw.
  - injection H as <-. apply vset_elem_kind in Q as [_ Q]. destruct e; destruct Q as [y ->]; destruct Sw.
  - rewrite <- oat_child in H. cbn [child] in H. destruct (pelem_dec f e) as [->|N].
    + rewrite (proj1 (vset_elem_child _ e x v' e Sn Q) eq_refl) in H. destruct (K q w H Sw) as [E'|]; auto. left. rewrite <- oat_child. exact E'.
    + left. destruct (proj2 (vset_elem_child _ e x v' f Sn Q) N) as [Eq|(_ & H2 & _)].
      * rewrite Eq in H. destruct o as [v|]; [rewrite <- oat_child; exact H|]. cbn [now] in H. rewrite vchild_null in H. discriminate H.
      * rewrite H2 in H. cbn [oat] in H. destruct (vat_null q) as [Z| ->]; [congruence|]. injection H as <-. destruct Sw.
Qed.

(** ** Once is enough *)

Section Once.
  Variable get_schema : bytes -> res value.
  Hypothesis sorted_schemas : forall u s, get_schema u = Ok s -> vsorted s.

  Lemma key_absent m ks k : absent m ks -> In k ks -> key k m = None.
  Proof. intros A I. exact (A k I). Qed.
  Lemma nothing_else sub m o : absent m ["properties"; "items"; "allOf"; "oneOf"; "anyOf"]%string -> l_rest sub m o = Ok o.
  Proof. intros A. unfold l_rest. rewrite !(key_absent m _ _ A) by (cbn; tauto). reflexivity. Qed.
  Lemma absent_sub m ks ks' : absent m ks -> incl ks' ks -> absent m ks'.
  Proof. intros A I k H. apply A, I, H. Qed.

  Lemma inner_stable g e o : osorted o -> g (child o e) = Ok (child o e) -> inner e g o = Ok o.
  Proof.
    intros S E. unfold inner. rewrite E. cbn [rbind]. destruct (child o e) as [x|] eqn:C; [|reflexivity]. destruct o as [v|]; [|discriminate C].
    cbn [set_in now]. rewrite (vset_elem_same v e x S C). reflexivity.
  Qed.
  (** What one step makes of the parts: the one it is about, and the others. *)
  Lemma inner_parts V f g e o o' : acts V f g -> (forall o, V o) -> osorted o -> inner e g o = Ok o' ->
    g (child o e) = Ok (child o' e) /\
    (forall d, d <> e -> child o' d = child o d \/ child o d = None /\ child o' d = Some VNull /\ exists i j, d = PIdx i /\ e = PIdx j /\ i < j).
  Proof.
    intros [_ B] AV S E. unfold inner in E. destruct (g (child o e)) as [c| | | |] eqn:G; try discriminate. cbn [rbind] in E.
    destruct (B _ _ (child_sorted o e S) (AV _) G) as (_ & _ & N). destruct c as [x|]; cbn [set_in] in E.
    - destruct (vset_elem (now o) e x) as [v|] eqn:Q; [|discriminate]. injection E as <-. cbn [child]. pose proof (now_sorted o S) as Sn. split.
      + rewrite (proj1 (vset_elem_child _ e x v e Sn Q) eq_refl). reflexivity.
      + intros d Nd. assert (C : vchild (now o) d = child o d) by (destruct o; [reflexivity|apply vchild_null]). rewrite <- C. exact (proj2 (vset_elem_child _ e x v d Sn Q) Nd).
    - injection E as <-. destruct (child o e); [destruct N; [discriminate|reflexivity]|]. auto.
  Qed.

  Section Sub.
    Variable f : nat.
    Let sub := local get_schema f.
    Hypothesis once : forall s o o', vsorted s -> simple get_schema s -> osorted o -> sub s o = Ok o' -> sub s o' = Ok o'.
    Hypothesis null : forall s, vsorted s -> simple get_schema s -> sub s None = Ok None -> sub s (Some VNull) = Ok (Some VNull).

    Lemma sub_inner e s o o' : vsorted s -> osorted o -> fits e o -> inner e (sub s) o = Ok o' -> osorted o' /\ fits e o' /\ (o <> None -> o' <> None).
    Proof. intros Ss So F E. destruct (acts_inner e _ _ (defaults_local get_schema sorted_schemas f s Ss)) as [_ B]. exact (B o o' So F E). Qed.
    Lemma sub_parts e s o o' : vsorted s -> osorted o -> inner e (sub s) o = Ok o' -> sub s (child o e) = Ok (child o' e) /\
      (forall d, d <> e -> child o' d = child o d \/ child o d = None /\ child o' d = Some VNull /\ exists i j, d = PIdx i /\ e = PIdx j /\ i < j).
    Proof. intros Ss So E. exact (inner_parts anything _ _ e o o' (defaults_local get_schema sorted_schemas f s Ss) (fun _ => I) So E). Qed.

    Lemma properties_once l : forall o o', msorted l -> (forall k t, In (k, t) l -> vsorted t /\ simple get_schema t) -> osorted o -> for_map o = true ->
      l_properties sub l o = Ok o' ->
      osorted o' /\ for_map o' = true /\ (o <> None -> o' <> None) /\
      (forall k t, In (k, t) l -> sub t (child o' (PKey k)) = Ok (child o' (PKey k))) /\
      (forall k, ~ In k (mkeys l) -> child o' (PKey k) = child o (PKey k)).
    Proof.
      induction l as [|[k s] l IH]; intros o o' Ml H So F E; cbn [l_properties] in E.
      - injection E as <-. split; [exact So|]. split; [exact F|]. split; [auto|]. split; [intros k t []|auto].
      - destruct (inner (PKey k) (sub s) o) as [o1| | | |] eqn:G; try discriminate. cbn [rbind] in E. destruct (H k s (or_introl eq_refl)) as [Ss Ps]. destruct Ml as [Mk Ml].
        apply fits_key with (k := k) in F. destruct (sub_inner _ s o o1 Ss So F G) as (S1 & F1 & N1). destruct (sub_parts _ s o o1 Ss So G) as [C1 C2]. apply fits_key in F1.
        destruct (IH o1 o' Ml) as (S2 & F2 & N2 & D1 & D2); auto; [intros k' t I'; apply (H k'); right; exact I'|].
        assert (Nk : ~ In k (mkeys l)). { intros I'. specialize (Mk k I'). rewrite bcmp_refl in Mk. discriminate. }
        split; [exact S2|]. split; [exact F2|]. split; [auto|]. split.
        + intros k' t [Q|Q]; [injection Q as <- <-|eauto]. rewrite D2 by exact Nk. apply (once s (child o (PKey k))); auto using child_sorted.
        + intros k' N. cbn in N. rewrite D2 by tauto. destruct (C2 (PKey k')) as [Q|(_ & _ & i & j & Q & _)]; [intros Q; injection Q as ->; tauto|exact Q|discriminate Q].
    Qed.
    Lemma properties_stable l : forall o, osorted o -> (forall k t, In (k, t) l -> sub t (child o (PKey k)) = Ok (child o (PKey k))) -> l_properties sub l o = Ok o.
    Proof.
      induction l as [|[k s] l IH]; intros o So H; cbn [l_properties]; [reflexivity|]. rewrite inner_stable; [|exact So|apply H; left; reflexivity]. cbn [rbind].
      apply IH; [exact So|]. intros k' t I'. apply H. right. exact I'.
    Qed.

    Lemma items_once l : forall i o o', (forall t, In t l -> vsorted t /\ simple get_schema t) -> osorted o -> for_list o = true ->
      l_items sub l i o = Ok o' ->
      osorted o' /\ for_list o' = true /\ (o <> None -> o' <> None) /\
      (forall j t, nth_error l j = Some t -> sub t (child o' (PIdx (i + N.of_nat j))) = Ok (child o' (PIdx (i + N.of_nat j)))) /\
      (forall j, j < i -> child o' (PIdx j) = child o (PIdx j) \/ child o (PIdx j) = None /\ child o' (PIdx j) = Some VNull).
    Proof.
      induction l as [|s l IH]; intros i o o' H So F E; cbn [l_items] in E.
      - injection E as <-. split; [exact So|]. split; [exact F|]. split; [auto|]. split; [intros [|j] t Q; discriminate Q|auto].
      - destruct (inner (PIdx i) (sub s) o) as [o1| | | |] eqn:G; try discriminate. cbn [rbind] in E. destruct (H s (or_introl eq_refl)) as [Ss Ps].
        apply fits_idx with (i := i) in F. destruct (sub_inner _ s o o1 Ss So F G) as (S1 & F1 & N1). destruct (sub_parts _ s o o1 Ss So G) as [C1 C2]. apply fits_idx in F1.
        destruct (IH (i + 1) o1 o') as (S2 & F2 & N2 & D1 & D2); auto; [intros t I'; apply H; right; exact I'|].
        split; [exact S2|]. split; [exact F2|]. split; [auto|]. split.
        + intros [|j] t Q; cbn [nth_error] in Q.
          * injection Q as <-. rewrite N.add_0_r. assert (O1 : sub s (child o1 (PIdx i)) = Ok (child o1 (PIdx i))) by (apply (once s (child o (PIdx i))); auto using child_sorted).
            destruct (D2 i) as [->|[Z ->]]; [lia|exact O1|]. apply null; auto. rewrite Z in O1. exact O1.
          * replace (i + N.of_nat (S j)) with (i + 1 + N.of_nat j) by lia. apply D1, Q.
        + intros j L. destruct (C2 (PIdx j)) as [Q|(Z & Q & _)]; [intros Q; injection Q as ->; lia| |].
          * rewrite <- Q. apply D2. lia.
          * destruct (D2 j) as [W|[W _]]; [lia|rewrite W; auto|congruence].
    Qed.
    Lemma items_stable l : forall i o, osorted o -> (forall j t, nth_error l j = Some t -> sub t (child o (PIdx (i + N.of_nat j))) = Ok (child o (PIdx (i + N.of_nat j)))) -> l_items sub l i o = Ok o.
    Proof.
      induction l as [|s l IH]; intros i o So H; cbn [l_items]; [reflexivity|]. rewrite inner_stable; [|exact So|]. 2: { specialize (H 0%nat s eq_refl). rewrite N.add_0_r in H. exact H. }
      cbn [rbind]. apply IH; [exact So|]. intros j t Q. specialize (H (S j) t Q). replace (i + 1 + N.of_nat j) with (i + N.of_nat (S j)) by lia. exact H.
    Qed.
  End Sub.

  Lemma counted_in {A} (l : list A) x : In x (counted l) -> In x l.
  Proof. unfold counted, take. generalize (N.to_nat (wrap32 (llen l))). intros n. revert l. induction n as [|n IH]; intros [|y l]; cbn; auto; try contradiction. intros [H|H]; eauto. Qed.

  Lemma local_once fuel :
    (forall s o o', vsorted s -> simple get_schema s -> osorted o -> local get_schema fuel s o = Ok o' -> local get_schema fuel s o' = Ok o') /\
    (forall s, vsorted s -> simple get_schema s -> local get_schema fuel s None = Ok None -> local get_schema fuel s (Some VNull) = Ok (Some VNull)).
  Proof.
    induction fuel as [|f [once null]]; [split; [discriminate|intros; discriminate]|]. cbn [local].
    assert (SV : forall m, vsorted (VMap m) -> forall k v, key k m = Some v -> vsorted v).
    { intros m S k v E. apply vsorted_map in S as [_ S]. apply mget_In in E. rewrite Forall_forall in S. apply (S _ E). }
    split.
    - intros s o o' Ss P So E. destruct s as [| | | | | | |m|]; try reflexivity. unfold l_map in *.
      inversion P as [s N|m0 x KD A|m0 u t KR G Pt A|m0 A P1 P2 P3 P4]; subst.
      + destruct (N m eq_refl).
      + rewrite (key_absent m _ "$ref" A) in * by (cbn; tauto). change (key "default" m = Some x) in KD. rewrite KD in *. cbn [rbind] in *.
        assert (AR : absent m ["properties"; "items"; "allOf"; "oneOf"; "anyOf"]%string) by (apply (absent_sub _ _ _ A); intros k H; right; exact H).
        rewrite (nothing_else (local get_schema f) m o AR) in E. rewrite (nothing_else (local get_schema f) m o' AR).
        destruct (is_absent o) eqn:Z; injection E as <-; [destruct (is_absent (Some x)); reflexivity|]. rewrite Z. reflexivity.
      + change (key "$ref" m = Some (VStr u)) in KR. rewrite KR, G in *. rewrite (key_absent m _ "default" A) in * by (cbn; tauto). cbn [rbind] in *.
        assert (AR : absent m ["properties"; "items"; "allOf"; "oneOf"; "anyOf"]%string) by (apply (absent_sub _ _ _ A); intros k H; right; exact H).
        destruct (local get_schema f t o) as [o1| | | |] eqn:L; try discriminate. cbn [rbind] in E. rewrite nothing_else in E by exact AR. injection E as <-.
        rewrite (once t o o1 (sorted_schemas _ _ G) Pt So L). cbn [rbind]. apply nothing_else, AR.
      + rewrite (key_absent m _ "$ref" A) in * by (cbn; tauto). rewrite (key_absent m _ "default" A) in * by (cbn; tauto). cbn [rbind] in *.
        unfold l_rest in *. rewrite (key_absent m _ "allOf" A) in * by (cbn; tauto). rewrite (key_absent m _ "oneOf" A) in * by (cbn; tauto). rewrite (key_absent m _ "anyOf" A) in * by (cbn; tauto).
        cbn [l_list rbind] in *.
        set (pr := fun o : slot => match key "properties" m with Some ps => if for_map o then l_props (local get_schema f) ps o else Ok o | None => Ok o end) in *.
        set (it := fun o : slot => match key "items" m with Some s => if for_list o then l_item (local get_schema f) s o else Ok o | None => Ok o end) in *.
        change ((do o1 <- pr o; do o2 <- it o1; Ok o2) = Ok o') in E.
        change ((do o1 <- pr o'; do o2 <- it o1; Ok o2) = Ok o').
        assert (PR : forall a b, osorted a -> pr a = Ok b -> osorted b /\ pr b = Ok b /\ (a <> None -> b <> None) /\ (for_map a = true -> for_map b = true) /\ (for_map a = false -> b = a)).
        { intros a b Sa Ea. unfold pr in *. destruct (key "properties" m) as [ps|] eqn:K; [|injection Ea as <-; auto 10]. destruct (for_map a) eqn:F; [|injection Ea as <-; rewrite F; auto 10].
          destruct (P1 ps K) as [l ->]. cbn [l_props] in *. pose proof (SV m Ss _ _ K) as Sl. apply vsorted_map in Sl as [Ml Sl]. rewrite Forall_forall in Sl.
          destruct (properties_once f once l a b) as (S2 & F2 & N2 & D1 & _); auto; [intros k t I'; split; [apply (Sl _ I')|eapply P2; eauto]|].
          rewrite F2. split; [exact S2|]. split; [apply properties_stable; assumption|]. split; [exact N2|]. split; [auto|discriminate]. }
        assert (IT : forall a b, osorted a -> it a = Ok b -> osorted b /\ it b = Ok b /\ (a <> None -> b <> None) /\ (for_list a = true -> for_list b = true) /\ (for_list a = false -> b = a)).
        { intros a b Sa Ea. unfold it in *. destruct (key "items" m) as [ps|] eqn:K; [|injection Ea as <-; auto 10]. destruct (for_list a) eqn:F; [|injection Ea as <-; rewrite F; auto 10].
          pose proof (SV m Ss _ _ K) as Sl.
          assert (NL : (forall l, ps <> VList l) -> osorted b /\ (if for_list b then l_item (local get_schema f) ps b else Ok b) = Ok b /\ (a <> None -> b <> None) /\ (true = true -> for_list b = true) /\ (true = false -> b = a)).
          { intros N. assert (LI : forall c, l_item (local get_schema f) ps c = inner (PIdx 0) (local get_schema f ps) c) by (intros c; destruct ps; try reflexivity; destruct (N _ eq_refl)).
            rewrite LI in *. apply fits_idx with (i := 0) in F. destruct (sub_inner f (PIdx 0) ps a b Sl Sa F Ea) as (S1 & F1 & N1). destruct (sub_parts f (PIdx 0) ps a b Sl Sa Ea) as [C1 _].
            apply fits_idx in F1. rewrite F1. split; [exact S1|]. split; [|split; [exact N1|split; [auto|discriminate]]].
            apply inner_stable; [exact S1|]. apply (once ps (child a (PIdx 0))); auto using child_sorted. }
          destruct ps; try (apply NL; discriminate). clear NL. cbn [l_item] in *. apply vsorted_list in Sl. rewrite Forall_forall in Sl.
          destruct (items_once f once null (counted l) 0 a b) as (S2 & F2 & N2 & D1 & _); auto; [intros t I'; apply counted_in in I'; split; [auto|eapply P3; eauto]|].
          rewrite F2. split; [exact S2|]. split; [apply items_stable; assumption|]. split; [exact N2|]. split; [auto|discriminate]. }
        destruct (pr o) as [o1| | | |] eqn:E1; try discriminate. cbn [rbind] in E. destruct (it o1) as [o2| | | |] eqn:E2; try discriminate. cbn [rbind] in E. injection E as ->.
        destruct (PR o o1 So E1) as (S1 & Q1 & N1 & FM & FM'). destruct (IT o1 o' S1 E2) as (S2 & Q2 & N2 & FL & FL').
        assert (Q : pr o' = Ok o').
        { destruct (for_list o1) eqn:L.
          - assert (SK : forall y, pr (Some (VList y)) = Ok (Some (VList y))) by (intros y; unfold pr; destruct (key "properties" m); reflexivity).
            specialize (FL eq_refl). destruct o' as [v'|]; [destruct v'; try discriminate FL; apply SK|]. destruct o1 as [v1|]; [|exact Q1]. destruct N2; [discriminate|reflexivity].
          - rewrite (FL' eq_refl). exact Q1. }
        rewrite Q. cbn [rbind]. rewrite Q2. reflexivity.
    - intros s Ss P E. destruct s as [| | | | | | |m|]; try reflexivity. unfold l_map in *.
      inversion P as [s N|m0 x KD A|m0 u t KR G Pt A|m0 A P1 P2 P3 P4]; subst.
      + destruct (N m eq_refl).
      + rewrite (key_absent m _ "$ref" A) in * by (cbn; tauto). change (key "default" m = Some x) in KD. rewrite KD in *. discriminate E.
      + change (key "$ref" m = Some (VStr u)) in KR. rewrite KR, G in *. rewrite (key_absent m _ "default" A) in * by (cbn; tauto). cbn [rbind] in *.
        assert (AR : absent m ["properties"; "items"; "allOf"; "oneOf"; "anyOf"]%string) by (apply (absent_sub _ _ _ A); intros k H; right; exact H).
        destruct (local get_schema f t None) as [o1| | | |] eqn:L; try discriminate. cbn [rbind] in E. rewrite nothing_else in E by exact AR. injection E as ->.
        rewrite (null t (sorted_schemas _ _ G) Pt L). cbn [rbind]. apply nothing_else, AR.
      + rewrite (key_absent m _ "$ref" A) in * by (cbn; tauto). rewrite (key_absent m _ "default" A) in * by (cbn; tauto). cbn [rbind] in *.
        unfold l_rest. rewrite (key_absent m _ "allOf" A) in * by (cbn; tauto). rewrite (key_absent m _ "oneOf" A) in * by (cbn; tauto). rewrite (key_absent m _ "anyOf" A) in * by (cbn; tauto).
        cbn [for_map for_list l_list rbind]. destruct (key "properties" m); destruct (key "items" m); reflexivity.
  Qed.
End Once.

(** ** From the place to the document *)

Fixpoint put_in (p : path) (c a : slot) : res slot :=
  match p with [] => Ok c | e :: q => do c' <- put_in q c (child a e); set_in a e c' end.
Lemma put_in_vset p : forall a x r, vset (now a) p x = Some r -> put_in p (Some x) a = Ok (Some r).
Proof.
  induction p as [|e p IH]; intros a x r E; cbn [vset put_in] in *; [congruence|].
  replace (match vchild (now a) e with Some w => w | None => VNull end) with (now (child a e)) in E by (destruct a; cbn [child now]; [reflexivity|rewrite vchild_null; reflexivity]).
  destruct (vset (now (child a e)) p x) as [w|] eqn:G; [|discriminate]. rewrite (IH _ _ _ G). cbn [rbind set_in]. rewrite E. reflexivity.
Qed.
Lemma put_in_rel (R : slot -> slot -> Prop) : (forall e o c o', osorted o -> fits e o -> R (child o e) c -> set_in o e c = Ok o' -> R o o') ->
  forall p a c r, osorted a -> (forall q e t, p = q ++ e :: t -> fits e (oat a q)) -> R (oat a p) c -> put_in p c a = Ok r -> R a r.
Proof.
  intros RI. induction p as [|e p IH]; intros a c r S V Q E; cbn [put_in] in E.
  - injection E as <-. destruct a; exact Q.
  - destruct (put_in p c (child a e)) as [c'| | | |] eqn:G; try discriminate. cbn [rbind] in E.
    apply (RI e a c' r S); [specialize (V [] e p eq_refl); destruct a; exact V| |exact E].
    apply (IH (child a e) c c'); [apply child_sorted, S| |rewrite oat_child; exact Q|exact G].
    intros q e' t ->. rewrite oat_child. apply (V (e :: q) e' t eq_refl).
Qed.
Lemma document_rel (R : slot -> slot -> Prop) root p o root' : (forall o, R o o) ->
  (forall e o c o', osorted o -> fits e o -> R (child o e) c -> set_in o e c = Ok o' -> R o o') ->
  vsorted root -> viable root p -> R (vat root p) o -> write root p o = Ok root' -> R (Some root) (Some root').
Proof.
  intros RR RI S V Q E. destruct o as [x|]; cbn [write] in E; [|injection E as <-; apply RR].
  unfold put in E. destruct (vset root p x) as [r|] eqn:G; [|discriminate]. injection E as ->.
  apply (put_in_rel R RI p (Some root) (Some x)); auto. apply put_in_vset. exact G.
Qed.

(** ** What is filled *)

Section Filled.
  Variable get_schema : bytes -> res value.
  Hypothesis sorted_schemas : forall u s, get_schema u = Ok s -> vsorted s.
  Section Sub.
    Variable f : nat.
    Let sub := local get_schema f.
    Lemma properties_parts l : forall o o', msorted l -> (forall k t, In (k, t) l -> vsorted t) -> osorted o -> for_map o = true ->
      l_properties sub l o = Ok o' ->
      (forall k t, In (k, t) l -> sub t (child o (PKey k)) = Ok (child o' (PKey k))) /\
      (forall k, ~ In k (mkeys l) -> child o' (PKey k) = child o (PKey k)).
    Proof.
      induction l as [|[k s] l IH]; intros o o' Ml H So F E; cbn [l_properties] in E.
      - injection E as <-. split; [intros k t []|auto].
      - destruct (inner (PKey k) (sub s) o) as [o1| | | |] eqn:G; try discriminate. cbn [rbind] in E. pose proof (H k s (or_introl eq_refl)) as Ss. destruct Ml as [Mk Ml].
        apply fits_key with (k := k) in F. destruct (sub_inner get_schema sorted_schemas f _ s o o1 Ss So F G) as (S1 & F1 & N1). destruct (sub_parts get_schema sorted_schemas f _ s o o1 Ss So G) as [C1 C2]. apply fits_key in F1.
        destruct (IH o1 o' Ml) as (D1 & D2); auto; [intros k' t I'; apply (H k'); right; exact I'|].
        assert (Nk : ~ In k (mkeys l)). { intros I'. specialize (Mk k I'). rewrite bcmp_refl in Mk. discriminate. }
        assert (Q : forall k', k' <> k -> child o1 (PKey k') = child o (PKey k')). { intros k' N. destruct (C2 (PKey k')) as [Q|(_ & _ & i & j & Q & _)]; [congruence|exact Q|discriminate Q]. }
        split.
        + intros k' t [W|W]; [injection W as <- <-; rewrite D2 by exact Nk; exact C1|]. rewrite <- Q; [apply D1; exact W|]. intros ->. apply Nk. apply in_map with (f := fst) in W. exact W.
        + intros k' N. cbn in N. rewrite D2 by tauto. apply Q. intros ->. tauto.
    Qed.
    Lemma items_parts l : forall i o o', (forall t, In t l -> vsorted t) -> osorted o -> for_list o = true -> l_items sub l i o = Ok o' ->
      (forall j t, nth_error l j = Some t -> exists c, sub t (child o (PIdx (i + N.of_nat j))) = Ok c /\
         (c <> None -> child o' (PIdx (i + N.of_nat j)) = c)) /\
      (forall j, j < i -> child o (PIdx j) <> None -> child o' (PIdx j) = child o (PIdx j)).
    Proof.
      induction l as [|s l IH]; intros i o o' H So F E; cbn [l_items] in E.
      - injection E as <-. split; [intros [|j] t Q; discriminate Q|auto].
      - destruct (inner (PIdx i) (sub s) o) as [o1| | | |] eqn:G; try discriminate. cbn [rbind] in E. pose proof (H s (or_introl eq_refl)) as Ss.
        apply fits_idx with (i := i) in F. destruct (sub_inner get_schema sorted_schemas f _ s o o1 Ss So F G) as (S1 & F1 & N1). destruct (sub_parts get_schema sorted_schemas f _ s o o1 Ss So G) as [C1 C2]. apply fits_idx in F1.
        destruct (IH (i + 1) o1 o') as (D1 & D2); auto; [intros t I'; apply H; right; exact I'|]. split.
        + intros [|j] t Q; cbn [nth_error] in Q.
          * injection Q as <-. rewrite N.add_0_r. exists (child o1 (PIdx i)). split; [exact C1|]. intros N. apply D2; [lia|exact N].
          * replace (i + N.of_nat (S j)) with (i + 1 + N.of_nat j) by lia. destruct (D1 j t Q) as (c & X & W). exists c. split; [|exact W].
            destruct (C2 (PIdx (i + 1 + N.of_nat j))) as [Z|(_ & _ & a & b & Z1 & Z2 & L)]; [intros Z; injection Z as Z; lia|rewrite <- Z; exact X|]. injection Z1 as <-. injection Z2 as <-. lia.
        + intros j L N. destruct (C2 (PIdx j)) as [Q|(Q & _)]; [intros Q; injection Q as ->; lia| |contradiction]. rewrite <- Q in *. apply D2; [lia|exact N].
    Qed.
  End Sub.


  Lemma local_fills fuel : forall s q x o o', vsorted s -> says get_schema s q x -> osorted o -> (forall a e t, q = a ++ e :: t -> fits e (oat o a)) -> is_absent (oat o q) = true ->
    local get_schema fuel s o = Ok o' -> oat o' q = Some x.
  Proof.
    induction fuel as [|f IH]; intros s q x o o' Ss P So V AB E; [discriminate|]. cbn [local] in E.
    assert (SV : forall m, vsorted (VMap m) -> forall k v, key k m = Some v -> vsorted v).
    { intros m S k v K. apply vsorted_map in S as [_ S]. apply mget_In in K. rewrite Forall_forall in S. apply (S _ K). }
    assert (VC : forall e q, (forall a e' t, e :: q = a ++ e' :: t -> fits e' (oat o a)) -> fits e o /\ forall a e' t, q = a ++ e' :: t -> fits e' (oat (child o e) a)).
    { clear. intros e q H. split; [specialize (H [] e q eq_refl); destruct o; exact H|]. intros a e' t ->. rewrite oat_child. apply (H (e :: a) e' t eq_refl). }
    inversion P as [m y KR KD|m u t q' y KR G A Pt|m ps k t q' y A K In1 Pt|m l i t q' y A K L Nt Pt|m t q' y A K NL Pt]; subst; unfold l_map in E.
    - change (key "$ref" m = None) in KR. change (key "default" m = Some x) in KD. rewrite KR, KD in E. cbn [rbind] in E. replace (is_absent o) with true in E by (destruct o; symmetry; exact AB).
      injection E as <-. reflexivity.
    - change (key "$ref" m = Some (VStr u)) in KR. rewrite KR, G in E. rewrite (key_absent m _ "default" A) in E by (cbn; tauto). cbn [rbind] in E.
      assert (AR : absent m ["properties"; "items"; "allOf"; "oneOf"; "anyOf"]%string) by (apply (absent_sub _ _ _ A); intros k H; right; exact H).
      destruct (local get_schema f t o) as [o1| | | |] eqn:L; try discriminate. cbn [rbind] in E. rewrite nothing_else in E by exact AR. injection E as <-. apply (IH t q x o o1); eauto.
    - rewrite (key_absent m _ "$ref" A), (key_absent m _ "default" A) in E by (cbn; tauto). cbn [rbind] in E. unfold l_rest in E.
      rewrite (key_absent m _ "allOf" A), (key_absent m _ "oneOf" A), (key_absent m _ "anyOf" A) in E by (cbn; tauto). change (key "properties" m = Some (VMap ps)) in K. rewrite K in E. cbn [l_list rbind l_props] in E.
      destruct (VC _ _ V) as [F VQ]. apply fits_key in F. rewrite F in E. destruct (l_properties (local get_schema f) ps o) as [o1| | | |] eqn:G; try discriminate. cbn [rbind] in E.
      pose proof (SV m Ss _ _ K) as Sl. apply vsorted_map in Sl as [Ml Sl]. rewrite Forall_forall in Sl.
      destruct (properties_parts f ps o o1 Ml) as [D _]; auto; [intros k' t' I'; apply (Sl _ I')|].
      assert (X : oat o1 (PKey k :: q') = Some x). { rewrite <- oat_child. apply (IH t q' x (child o (PKey k))); auto using child_sorted; [apply (Sl _ In1)|rewrite oat_child; exact AB]. }
      destruct o1 as [[]|]; try discriminate X. cbn [for_list] in E. destruct (key "items" m); injection E as <-; exact X.
    - rewrite (key_absent m _ "$ref" A), (key_absent m _ "default" A) in E by (cbn; tauto). cbn [rbind] in E. unfold l_rest in E.
      rewrite (key_absent m _ "properties" A), (key_absent m _ "allOf" A), (key_absent m _ "oneOf" A), (key_absent m _ "anyOf" A) in E by (cbn; tauto). change (key "items" m = Some (VList l)) in K. rewrite K in E. cbn [l_list rbind l_item] in E.
      destruct (VC _ _ V) as [F VQ]. apply fits_idx in F. rewrite F in E. rewrite counted_all in E by exact L. destruct (l_items (local get_schema f) l 0 o) as [o1| | | |] eqn:G; try discriminate. cbn [rbind] in E. injection E as <-.
      pose proof (SV m Ss _ _ K) as Sl. apply vsorted_list in Sl. rewrite Forall_forall in Sl.
      destruct (items_parts f l 0 o o1) as [D _]; auto. specialize (D _ _ Nt). rewrite N.add_0_l, Nnat.N2Nat.id in D. destruct D as (c & D & W).
      assert (X : oat c q' = Some x).
      { apply (IH t q' x (child o (PIdx i))); auto using child_sorted; [apply Sl; eapply nth_error_In; eauto|rewrite oat_child; exact AB]. }
      rewrite <- oat_child, W; [exact X|]. intros ->. discriminate X.
    - rewrite (key_absent m _ "$ref" A), (key_absent m _ "default" A) in E by (cbn; tauto). cbn [rbind] in E. unfold l_rest in E.
      rewrite (key_absent m _ "properties" A), (key_absent m _ "allOf" A), (key_absent m _ "oneOf" A), (key_absent m _ "anyOf" A) in E by (cbn; tauto). change (key "items" m = Some t) in K. rewrite K in E. cbn [l_list rbind] in E.
      destruct (VC _ _ V) as [F VQ]. pose proof F as F'. apply fits_idx in F'. rewrite F' in E.
      replace (l_item (local get_schema f) t o) with (inner (PIdx 0) (local get_schema f t) o) in E by (destruct t; try reflexivity; destruct (NL _ eq_refl)).
      destruct (inner (PIdx 0) (local get_schema f t) o) as [o1| | | |] eqn:G; try discriminate. cbn [rbind] in E. injection E as <-.
      pose proof (SV m Ss _ _ K) as St. destruct (sub_parts get_schema sorted_schemas f _ t o o1 St So G) as [C1 _].
      rewrite <- oat_child. apply (IH t q' x (child o (PIdx 0))); auto using child_sorted. rewrite oat_child. exact AB.
  Qed.

  (** ** It ends *)

  Lemma sound_more n s : sound get_schema n s -> forall k, (n <= k)%nat -> sound get_schema k s.
  Proof.
    revert s. induction n as [|n IH]; intros s P k L; [inversion P|]. destruct k as [|k]; [lia|].
    inversion P as [n' s' N|n' m H1 H2 H3 H4 H5]; subst; [apply sound_other; assumption|]. apply sound_map.
    - intros u K. destruct (H1 u K) as (t & G & Q). exists t. split; [exact G|]. apply IH; [exact Q|lia].
    - intros ps K. destruct (H2 ps K) as (l & -> & Q). exists l. split; [reflexivity|]. intros k' t I'. apply IH; [eapply Q; eauto|lia].
    - intros l t K I'. apply IH; [eapply H3; eauto|lia].
    - intros t K NL. apply IH; [eapply H4; eauto|lia].
    - intros k' l t Ik K I'. apply IH; [eapply H5; eauto|lia].
  Qed.
  Lemma local_ends fuel : forall s o, vsorted s -> sound get_schema fuel s -> osorted o -> exists o', local get_schema fuel s o = Ok o'.
  Proof.
    induction fuel as [|f IH]; intros s o Ss P So; [inversion P|]. cbn [local]. destruct s as [| | | | | | |m|]; eauto.
    inversion P as [n' s' N|n' m' H1 H2 H3 H4 H5]; subst; [destruct (N m eq_refl)|].
    assert (SV : forall k v, key k m = Some v -> vsorted v).
    { intros k v K. apply vsorted_map in Ss as [_ S]. apply mget_In in K. rewrite Forall_forall in S. apply (S _ K). }
    pose proof (fun s => defaults_local get_schema sorted_schemas f s) as ACT.
    set (sub := local get_schema f) in *.
    assert (SUB : forall s o, vsorted s -> sound get_schema f s -> osorted o -> exists o', sub s o = Ok o' /\ osorted o').
    { intros s1 o1 T1 P1 S1. destruct (IH s1 o1 T1 P1 S1) as [o2 E1]. exists o2. split; [exact E1|]. destruct (ACT s1 T1) as [_ B]. apply (B o1 o2 S1 I E1). }
    assert (INN : forall e s o, vsorted s -> sound get_schema f s -> osorted o -> fits e o -> exists o', inner e (sub s) o = Ok o' /\ osorted o' /\ fits e o').
    { intros e s1 o1 T1 P1 S1 F1. assert (X : exists o2, inner e (sub s1) o1 = Ok o2).
      { unfold inner. destruct (SUB s1 (child o1 e) T1 P1 (child_sorted _ _ S1)) as (c & -> & _). cbn [rbind]. destruct c as [x|]; cbn [set_in]; [|eauto].
        assert (Y : exists v, vset_elem (now o1) e x = Some v); [|destruct Y as [v ->]; eauto]. destruct o1 as [w|]; cbn [now fits] in *; [|destruct e; cbn; eauto].
        destruct e; destruct F1 as [y ->]; cbn; eauto. }
      destruct X as [o2 X]. exists o2. split; [exact X|]. destruct (acts_inner e _ _ (ACT s1 T1)) as [_ B]. destruct (B o1 o2 S1 F1 X) as (? & ? & _). auto. }
    assert (EACH : forall l o, (forall t, In t l -> vsorted t /\ sound get_schema f t) -> osorted o -> exists o', l_each sub l o = Ok o' /\ osorted o').
    { induction l as [|s1 l IHl]; intros o1 TL S1; cbn [l_each]; [eauto|]. destruct (TL s1 (or_introl eq_refl)) as [T1 P1]. destruct (SUB s1 o1 T1 P1 S1) as (o2 & -> & S2). cbn [rbind].
      apply IHl; [intros t H; apply TL; right; exact H|exact S2]. }
    assert (LIST : forall k o, In k ["allOf"; "oneOf"; "anyOf"]%string -> osorted o -> exists o', l_list sub (key k m) o = Ok o' /\ osorted o').
    { intros k o1 Ik S1. unfold l_list. destruct (key k m) as [[]|] eqn:K; eauto. apply EACH; [|exact S1]. intros t H. split; [|eapply H5; eauto].
      specialize (SV _ _ K). apply vsorted_list in SV. rewrite Forall_forall in SV. auto. }
    assert (PROP : forall l o, (forall k t, In (k, t) l -> vsorted t /\ sound get_schema f t) -> osorted o -> for_map o = true -> exists o', l_properties sub l o = Ok o' /\ osorted o').
    { induction l as [|[k s1] l IHl]; intros o1 TL S1 F1; cbn [l_properties]; [eauto|]. destruct (TL k s1 (or_introl eq_refl)) as [T1 P1].
      apply fits_key with (k := k) in F1. destruct (INN _ s1 o1 T1 P1 S1 F1) as (o2 & -> & S2 & F2). cbn [rbind]. apply fits_key in F2. apply IHl; auto. intros k' t H. apply (TL k'). right. exact H. }
    assert (ITEM : forall l i o, (forall t, In t l -> vsorted t /\ sound get_schema f t) -> osorted o -> for_list o = true -> exists o', l_items sub l i o = Ok o' /\ osorted o').
    { induction l as [|s1 l IHl]; intros i o1 TL S1 F1; cbn [l_items]; [eauto|]. destruct (TL s1 (or_introl eq_refl)) as [T1 P1].
      apply fits_idx with (i := i) in F1. destruct (INN _ s1 o1 T1 P1 S1 F1) as (o2 & -> & S2 & F2). cbn [rbind]. apply fits_idx in F2. apply IHl; auto. intros t H. apply TL. right. exact H. }
    unfold l_map. assert (X1 : exists o1, match key "$ref" m with Some (VStr u) => do s <- get_schema u; sub s o | _ => Ok o end = Ok o1 /\ osorted o1).
    { destruct (key "$ref" m) as [[]|] eqn:K; eauto. destruct (H1 s K) as (t & G & Q). rewrite G. cbn [rbind]. apply SUB; eauto. }
    destruct X1 as (o1 & -> & S1). cbn [rbind].
    assert (REST : exists o', l_rest sub m o1 = Ok o').
    { unfold l_rest.
      assert (X2 : exists o2, match key "properties" m with Some ps => if for_map o1 then l_props sub ps o1 else Ok o1 | None => Ok o1 end = Ok o2 /\ osorted o2).
      { destruct (key "properties" m) as [ps|] eqn:K; [|eauto]. destruct (for_map o1) eqn:F; [|eauto]. destruct (H2 ps K) as (l & -> & Q). cbn [l_props]. apply PROP; auto.
        intros k t H. split; [|eapply Q; eauto]. specialize (SV _ _ K). apply vsorted_map in SV as [_ SV]. rewrite Forall_forall in SV. apply (SV _ H). }
      destruct X2 as (o2 & -> & S2). cbn [rbind].
      assert (X3 : exists o3, match key "items" m with Some s => if for_list o2 then l_item sub s o2 else Ok o2 | None => Ok o2 end = Ok o3 /\ osorted o3).
      { destruct (key "items" m) as [s|] eqn:K; [|eauto]. destruct (for_list o2) eqn:F; [|eauto]. pose proof (SV _ _ K) as Sl.
        assert (NL : (forall l, s <> VList l) -> exists o3, l_item sub s o2 = Ok o3 /\ osorted o3).
        { intros N. replace (l_item sub s o2) with (inner (PIdx 0) (sub s) o2) by (destruct s; try reflexivity; destruct (N _ eq_refl)).
          apply fits_idx with (i := 0) in F. destruct (INN _ s o2 Sl (H4 s K N) S2 F) as (o3 & Q & ? & _). eauto. }
        destruct s; try (apply NL; discriminate). cbn [l_item]. apply ITEM; auto. intros t H. apply counted_in in H. apply vsorted_list in Sl. rewrite Forall_forall in Sl. split; [auto|eapply H3; eauto]. }
      destruct X3 as (o3 & -> & S3). cbn [rbind].
      destruct (LIST "allOf"%string o3) as (o4 & -> & S4); [cbn; tauto|exact S3|]. cbn [rbind].
      destruct (LIST "oneOf"%string o4) as (o5 & -> & S5); [cbn; tauto|exact S4|]. cbn [rbind].
      destruct (LIST "anyOf"%string o5) as (o6 & -> & S6); [cbn; tauto|exact S5|]. eauto. }
    destruct (key "default" m); [|exact REST]. destruct (is_absent o1); [eauto|exact REST].
  Qed.
End Filled.

(** ** No default is forgotten *)

Definition there (o : slot) (q : path) : Prop := exists w, oat o q = Some w /\ w <> VNull.
Definition way (o : slot) (q : path) : Prop := forall a e t, q = a ++ e :: t -> exists w, oat o a = Some w /\ kind_for e w.
Lemma there_keeps o o' q : keeps o o' -> there o q -> there o' q.
Proof. intros K (w & E & N). destruct (K q w E) as (w' & E' & Q). exists w'. split; [exact E'|]. intros ->. destruct w; cbn in Q; congruence. Qed.
Lemma way_keeps o o' q : keeps o o' -> way o q -> way o' q.
Proof.
  intros K W a e t E. destruct (W a e t E) as (w & E1 & F). destruct (K a w E1) as (w' & E' & Q). exists w'. split; [exact E'|].
  destruct e; destruct F as [y ->]; destruct w'; cbn in Q; try discriminate; eexists; reflexivity.
Qed.
Lemma way_child o e q : way o (e :: q) -> fits e o /\ way (child o e) q.
Proof.
  intros W. split.
  - destruct (W [] e q eq_refl) as (w & E & F). destruct o as [v|]; [|exact I]. injection E as ->. exact F.
  - intros a e' t ->. destruct (W (e :: a) e' t eq_refl) as (w & E & F). exists w. rewrite oat_child. auto.
Qed.

Section Gives.
  Variable get_schema : bytes -> res value.
  Hypothesis sorted_schemas : forall u s, get_schema u = Ok s -> vsorted s.
  Lemma sorted_part m k v : vsorted (VMap m) -> key k m = Some v -> vsorted v.
  Proof. intros S K. apply vsorted_map in S as [_ S]. apply mget_In in K. rewrite Forall_forall in S. apply (S _ K). Qed.
  Lemma local_keeps f s o o' : vsorted s -> osorted o -> local get_schema f s o = Ok o' -> keeps o o' /\ osorted o'.
  Proof.
    intros Ss So E. split; [|destruct (defaults_local get_schema sorted_schemas f s Ss) as [_ B]; apply (B o o' So I E)].
    apply (local_rel get_schema sorted_schemas vsorted (fun _ => True)) with (fuel := f) (s := s); auto using keeps_refl, keeps_default.
    - intros m u t _ _ G. eapply sorted_schemas; eauto.
    - intros m ps k t S K I'. apply (sorted_part m _ _ S) in K. apply vsorted_map in K as [_ K]. rewrite Forall_forall in K. apply (K _ I').
    - intros m l t S K I'. apply (sorted_part m _ _ S) in K. apply vsorted_list in K. rewrite Forall_forall in K. auto.
    - intros m t S K. apply (sorted_part m _ _ S K).
    - intros m k l t S _ K I'. apply (sorted_part m _ _ S) in K. apply vsorted_list in K. rewrite Forall_forall in K. auto.
    - apply keeps_trans.
    - apply keeps_inner.
  Qed.
  Section Sub.
    Variable f : nat.
    Let sub := local get_schema f.
    Hypothesis fills : forall s q x o o', vsorted s -> gives get_schema s q x -> x <> VNull -> osorted o -> way o q -> sub s o = Ok o' -> there o' q.
    Lemma inner_keeps e s o o' : vsorted s -> osorted o -> fits e o -> inner e (sub s) o = Ok o' -> keeps o o' /\ osorted o' /\ fits e o'.
    Proof.
      intros Ss So F E. destruct (sub_inner get_schema sorted_schemas f e s o o' Ss So F E) as (S1 & F1 & _). split; [|auto].
      unfold inner in E. destruct (sub s (child o e)) as [c| | | |] eqn:G; try discriminate. cbn [rbind] in E.
      apply (keeps_inner e o c o' So F); [|exact E]. apply (local_keeps f s); auto using child_sorted.
    Qed.
    Lemma inner_fills e s q x o o' : vsorted s -> gives get_schema s q x -> x <> VNull -> osorted o -> way o (e :: q) -> inner e (sub s) o = Ok o' -> there o' (e :: q).
    Proof.
      intros Ss P N So W E. destruct (way_child o e q W) as [F W']. destruct (sub_parts get_schema sorted_schemas f e s o o' Ss So E) as [C _].
      destruct (fills s q x _ _ Ss P N (child_sorted o e So) W' C) as (w & E' & N'). exists w. rewrite <- oat_child. auto.
    Qed.
    Lemma each_fills l : forall o o', (forall t, In t l -> vsorted t) -> osorted o -> l_each sub l o = Ok o' ->
      keeps o o' /\ osorted o' /\ forall t q x, In t l -> gives get_schema t q x -> x <> VNull -> way o q -> there o' q.
    Proof.
      induction l as [|s l IH]; intros o o' H So E; cbn [l_each] in E; [injection E as <-; split; [apply keeps_refl|split; [exact So|intros t q x []]]|].
      destruct (sub s o) as [o1| | | |] eqn:G; try discriminate. cbn [rbind] in E. pose proof (H s (or_introl eq_refl)) as Ss. destruct (local_keeps f s o o1 Ss So G) as [K1 S1].
      destruct (IH o1 o') as (K2 & S2 & D); auto; [intros t I'; apply H; right; exact I'|]. split; [eapply keeps_trans; eauto|]. split; [exact S2|].
      intros t q x [<-|I'] P N W; [|apply (D t q x); auto; eapply way_keeps; eauto]. apply (there_keeps o1); [exact K2|]. apply (fills s q x o o1); auto.
    Qed.
    Lemma properties_fills l : forall o o', (forall k t, In (k, t) l -> vsorted t) -> osorted o -> for_map o = true -> l_properties sub l o = Ok o' ->
      keeps o o' /\ osorted o' /\ forall k t q x, In (k, t) l -> gives get_schema t q x -> x <> VNull -> way o (PKey k :: q) -> there o' (PKey k :: q).
    Proof.
      induction l as [|[k s] l IH]; intros o o' H So F E; cbn [l_properties] in E; [injection E as <-; split; [apply keeps_refl|split; [exact So|intros k t q x []]]|].
      destruct (inner (PKey k) (sub s) o) as [o1| | | |] eqn:G; try discriminate. cbn [rbind] in E. pose proof (H k s (or_introl eq_refl)) as Ss.
      apply fits_key with (k := k) in F. destruct (inner_keeps (PKey k) s o o1 Ss So F G) as (K1 & S1 & F1). apply fits_key in F1.
      destruct (IH o1 o') as (K2 & S2 & D); auto; [intros k' t I'; apply (H k'); right; exact I'|]. split; [eapply keeps_trans; eauto|]. split; [exact S2|].
      intros k' t q x [Q|I'] P N W; [injection Q as <- <-|apply (D k' t q x); auto; eapply way_keeps; eauto]. apply (there_keeps o1); [exact K2|]. apply (inner_fills (PKey k) s q x o o1); auto.
    Qed.
    Lemma items_fills l : forall i o o', (forall t, In t l -> vsorted t) -> osorted o -> for_list o = true -> l_items sub l i o = Ok o' ->
      keeps o o' /\ osorted o' /\ forall j t q x, nth_error l j = Some t -> gives get_schema t q x -> x <> VNull -> way o (PIdx (i + N.of_nat j) :: q) -> there o' (PIdx (i + N.of_nat j) :: q).
    Proof.
      induction l as [|s l IH]; intros i o o' H So F E; cbn [l_items] in E; [injection E as <-; split; [apply keeps_refl|split; [exact So|intros [|j] t q x Q; discriminate Q]]|].
      destruct (inner (PIdx i) (sub s) o) as [o1| | | |] eqn:G; try discriminate. cbn [rbind] in E. pose proof (H s (or_introl eq_refl)) as Ss.
      apply fits_idx with (i := i) in F. destruct (inner_keeps (PIdx i) s o o1 Ss So F G) as (K1 & S1 & F1). apply fits_idx in F1.
      destruct (IH (i + 1) o1 o') as (K2 & S2 & D); auto; [intros t I'; apply H; right; exact I'|]. split; [eapply keeps_trans; eauto|]. split; [exact S2|].
      intros [|j] t q x Q P N W; cbn [nth_error] in Q.
      - injection Q as <-. rewrite N.add_0_r in *. apply (there_keeps o1); [exact K2|]. apply (inner_fills (PIdx i) s q x o o1); auto.
      - replace (i + N.of_nat (S j)) with (i + 1 + N.of_nat j) in * by lia. apply (D j t q x); auto. eapply way_keeps; eauto.
    Qed.
    Lemma list_fills m k a b : vsorted (VMap m) -> osorted a -> l_list sub (key k m) a = Ok b ->
      keeps a b /\ osorted b /\ forall l t q x, kw k m = Some (VList l) -> In t l -> gives get_schema t q x -> x <> VNull -> way a q -> there b q.
    Proof.
      intros Sm Sa E. change (kw k m) with (key k m). destruct (key k m) as [v|] eqn:K; [|injection E as <-; split; [apply keeps_refl|split; [exact Sa|discriminate]]].
      apply (sorted_part m _ _ Sm) in K. destruct v; try (injection E as <-; split; [apply keeps_refl|split; [exact Sa|discriminate]]).
      apply vsorted_list in K. rewrite Forall_forall in K. destruct (each_fills l a b K Sa E) as (K1 & S1 & D). split; [exact K1|]. split; [exact S1|].
      intros l' t q x Q. injection Q as <-. apply D.
    Qed.
    Lemma rest_fills m o o' : vsorted (VMap m) -> osorted o -> l_rest sub m o = Ok o' -> keeps o o' /\
      forall q x, gives get_schema (VMap m) q x -> x <> VNull -> way o q ->
        there o' q \/ q = [] /\ kw "default" m = Some x \/ exists u t, kw "$ref" m = Some (VStr u) /\ get_schema u = Ok t /\ gives get_schema t q x.
    Proof.
      intros Sm So E. unfold l_rest in E.
      destruct (match key "properties" m with Some ps => if for_map o then l_props sub ps o else Ok o | None => Ok o end) as [o2| | | |] eqn:EP; try discriminate. cbn [rbind] in E.
      assert (H2 : keeps o o2 /\ osorted o2 /\ forall ps k t q x, kw "properties" m = Some (VMap ps) -> In (k, t) ps -> gives get_schema t q x -> x <> VNull -> way o (PKey k :: q) -> there o2 (PKey k :: q)).
      { change (kw "properties" m) with (key "properties" m). destruct (key "properties" m) as [ps|] eqn:K; [|injection EP as <-; split; [apply keeps_refl|split; [exact So|discriminate]]].
        destruct (for_map o) eqn:F.
        - unfold l_props in EP. destruct ps as [| | | | | | |l|]; try discriminate; [injection EP as <-; split; [apply keeps_refl|split; [exact So|discriminate]]|].
          apply (sorted_part m _ _ Sm) in K. apply vsorted_map in K as [_ K]. rewrite Forall_forall in K.
          destruct (properties_fills l o o2) as (K1 & S1 & D); auto; [intros k t I'; apply (K _ I')|]. split; [exact K1|]. split; [exact S1|]. intros ps k t q x Q. injection Q as <-. apply D.
        - injection EP as <-. split; [apply keeps_refl|]. split; [exact So|]. intros ps' k t q x _ _ _ _ W. exfalso. destruct (W [] (PKey k) q eq_refl) as (w & Q & y & ->). destruct o as [v|]; [|discriminate]. injection Q as ->. discriminate F. }
      destruct H2 as (K2 & S2 & D2). clear EP.
      destruct (match key "items" m with Some s => if for_list o2 then l_item sub s o2 else Ok o2 | None => Ok o2 end) as [o3| | | |] eqn:EI; try discriminate. cbn [rbind] in E.
      assert (H3 : keeps o2 o3 /\ osorted o3 /\
        (forall l i t q x, kw "items" m = Some (VList l) -> N.of_nat (List.length l) < 2 ^ 32 -> nth_error l (N.to_nat i) = Some t -> gives get_schema t q x -> x <> VNull -> way o2 (PIdx i :: q) -> there o3 (PIdx i :: q)) /\
        (forall t q x, kw "items" m = Some t -> (forall l, t <> VList l) -> gives get_schema t q x -> x <> VNull -> way o2 (PIdx 0 :: q) -> there o3 (PIdx 0 :: q))).
      { change (kw "items" m) with (key "items" m). destruct (key "items" m) as [ps|] eqn:K; [|injection EI as <-; split; [apply keeps_refl|split; [exact S2|split; discriminate]]].
        destruct (for_list o2) eqn:F.
        - apply (sorted_part m _ _ Sm) in K. assert (NL : (forall l, ps <> VList l) -> inner (PIdx 0) (sub ps) o2 = Ok o3) by (intros N; destruct ps; try exact EI; destruct (N _ eq_refl)).
          destruct ps as [|p1|p2|p3|p4|p5|l|p6|p7]; try (apply fits_idx with (i := 0) in F; assert (EI' := NL ltac:(discriminate)); destruct (inner_keeps (PIdx 0) _ o2 o3 K S2 F EI') as (K1 & S1 & _);
            split; [exact K1|]; split; [exact S1|]; split; [intros l' i t q x Q; discriminate Q|]; intros t q x Q _ P N W; injection Q as <-; apply (inner_fills (PIdx 0) _ q x o2 o3 K P N S2 W EI')).
          clear NL. cbn [l_item] in EI. apply vsorted_list in K. rewrite Forall_forall in K. destruct (items_fills (counted l) 0 o2 o3) as (K1 & S1 & D); auto; [intros t I'; apply counted_in in I'; auto|].
          split; [exact K1|]. split; [exact S1|]. split; [|intros t q x Q NL; injection Q as <-; destruct (NL l eq_refl)].
          intros l' i t q x Q L Nt P N W. injection Q as <-. rewrite counted_all in D by exact L. specialize (D (N.to_nat i) t q x Nt P N). rewrite N.add_0_l, Nnat.N2Nat.id in D. apply D, W.
        - injection EI as <-. split; [apply keeps_refl|]. split; [exact S2|].
          assert (X : forall i q, way o2 (PIdx i :: q) -> False). { intros i q W. destruct (W [] (PIdx i) q eq_refl) as (w & Q & y & ->). destruct o2 as [v|]; [|discriminate]. injection Q as ->. discriminate F. }
          split; [intros l i t q x _ _ _ _ _ W|intros t q x _ _ _ _ W]; destruct (X _ _ W). }
      destruct H3 as (K3 & S3 & D3 & D3'). clear EI.
      destruct (l_list sub (key "allOf" m) o3) as [o4| | | |] eqn:E4; try discriminate. cbn [rbind] in E. destruct (list_fills m "allOf" o3 o4 Sm S3 E4) as (K4 & S4 & D4).
      destruct (l_list sub (key "oneOf" m) o4) as [o5| | | |] eqn:E5; try discriminate. cbn [rbind] in E. destruct (list_fills m "oneOf" o4 o5 Sm S4 E5) as (K5 & S5 & D5).
      destruct (list_fills m "anyOf" o5 o' Sm S5 E) as (K6 & S6 & D6).
      pose proof (keeps_trans _ _ _ K5 K6) as K56. pose proof (keeps_trans _ _ _ K4 K56) as K46. pose proof (keeps_trans _ _ _ K3 K46) as K36. pose proof (keeps_trans _ _ _ K2 K36) as K26.
      pose proof (keeps_trans _ _ _ K2 K3) as K23. pose proof (keeps_trans _ _ _ K23 K4) as K24. pose proof (keeps_trans _ _ _ K24 K5) as K25.
      split; [exact K26|]. intros q x P N W.
      inversion P as [m' y KD|m' u t q' y KR G Pt|m' ps k t q' y K In1 Pt|m' l i t q' y K L Nt Pt|m' t q' y K NL Pt|m' k l t q' y _ Ik K In1 Pt]; subst; auto.
      - right. right. eauto.
      - left. apply (there_keeps o2); [exact K36|]. eapply D2; eauto.
      - left. apply (there_keeps o3); [exact K46|]. eapply D3; eauto. eapply way_keeps; eauto.
      - left. apply (there_keeps o3); [exact K46|]. eapply D3'; eauto. eapply way_keeps; eauto.
      - left. cbn in Ik. destruct Ik as [<-|[<-|[<-|[]]]].
        + apply (there_keeps o4); [exact K56|]. eapply D4; eauto. eapply way_keeps; eauto.
        + apply (there_keeps o5); [exact K6|]. eapply D5; eauto. eapply way_keeps; eauto.
        + eapply D6; eauto. eapply way_keeps; eauto.
    Qed.
  End Sub.
  Lemma local_gives fuel : forall s q x o o', vsorted s -> gives get_schema s q x -> x <> VNull -> osorted o -> way o q -> local get_schema fuel s o = Ok o' -> there o' q.
  Proof.
    induction fuel as [|f IH]; intros s q x o o' Ss P N So W E; [discriminate|]. cbn [local] in E.
    destruct s as [| | | | | | |m|]; try (inversion P; fail). unfold l_map in E.
    destruct (match key "$ref" m with Some (VStr u) => do s <- get_schema u; local get_schema f s o | _ => Ok o end) as [o1| | | |] eqn:ER; try discriminate. cbn [rbind] in E.
    assert (H1 : keeps o o1 /\ osorted o1 /\ forall u t, kw "$ref" m = Some (VStr u) -> get_schema u = Ok t -> gives get_schema t q x -> there o1 q).
    { change (kw "$ref" m) with (key "$ref" m). destruct (key "$ref" m) as [[]|] eqn:K; try (injection ER as <-; split; [apply keeps_refl|split; [exact So|discriminate]]).
      destruct (get_schema s) as [t| | | |] eqn:G; try discriminate. cbn [rbind] in ER. destruct (local_keeps f t o o1) as [K1 S1]; eauto. split; [exact K1|]. split; [exact S1|].
      intros u t' Q G' P'. injection Q as <-. rewrite G in G'. injection G' as <-. apply (IH t q x o o1); eauto. }
    destruct H1 as (K1 & S1 & D1). clear ER.
    assert (W1 : way o1 q) by (eapply way_keeps; eauto).
    assert (REST : l_rest (local get_schema f) m o1 = Ok o' -> (kw "default" m <> None -> is_absent o1 = false) -> there o' q).
    { intros ER Q. destruct (rest_fills f IH m o1 o' Ss S1 ER) as [K2 D2]. destruct (D2 q x P N W1) as [D|[[-> D]|(u & t & KR & G & P')]]; [exact D| |].
      - apply (there_keeps o1); [exact K2|]. assert (X : is_absent o1 = false) by (apply Q; congruence). destruct o1 as [v|]; [|discriminate X]. exists v. split; [reflexivity|]. intros ->. discriminate X.
      - apply (there_keeps o1); [exact K2|]. eapply D1; eauto. }
    change (key "default" m) with (kw "default" m) in E. destruct (kw "default" m) as [y|] eqn:KD; [|apply REST; [exact E|congruence]].
    destruct (is_absent o1) eqn:AB; [|apply REST; auto]. injection E as <-.
    assert (QE : q = []). { destruct q as [|e q]; [reflexivity|]. destruct (W1 [] e q eq_refl) as (w & E & F). destruct o1 as [v|]; [|discriminate]. injection E as ->. destruct e; destruct F as [z ->]; discriminate AB. }
    subst q. assert (NT : there o1 [] -> False). { intros (w & E & Nw). destruct o1 as [v|]; [|discriminate]. injection E as ->. destruct w; try discriminate AB. congruence. }
    exists y. split; [reflexivity|]. inversion P as [m' y' KD'|m' u t q' y' KR G Pt| | | |m' k l t q' y' ND Ik K In1 Pt]; subst.
    - congruence.
    - destruct NT. eapply D1; eauto.
    - congruence.
  Qed.
End Gives.

(** ** Deciding, for examples *)

Fixpoint msortedb {A} (m : list (bytes * A)) : bool :=
  match m with [] => true | (k, _) :: t => forallb (fun kv => match bcmp k (fst kv) with Lt => true | _ => false end) t && msortedb t end.
Lemma msortedb_ok {A} (m : list (bytes * A)) : msortedb m = true -> msorted m.
Proof.
  induction m as [|[k v] t IH]; cbn [msortedb msorted]; [auto|]. rewrite andb_true_iff. intros [H J]. split; [|auto].
  intros k' I'. apply in_map_iff in I' as (kv & <- & I'). rewrite forallb_forall in H. specialize (H _ I'). destruct (bcmp k (fst kv)); auto; discriminate.
Qed.
Fixpoint vsortedb (v : value) : bool :=
  match v with
  | VList l => (fix go l := match l with [] => true | x :: t => vsortedb x && go t end) l
  | VMap m => msortedb m && (fix go m := match m with [] => true | kv :: t => vsortedb (snd kv) && go t end) m
  | _ => true
  end.
Lemma vsortedb_ok : forall v, vsortedb v = true -> vsorted v.
Proof.
  fix IH 1. intros v. destruct v; cbn [vsortedb vsorted]; auto.
  - revert l. fix IHl 1. intros [|x t]; [auto|]. rewrite andb_true_iff. intros [H J]. split; [apply IH, H|apply IHl, J].
  - rewrite andb_true_iff. intros [M H]. split; [apply msortedb_ok, M|]. clear M. revert m H. fix IHm 1. intros [|[k x] t]; [auto|]. rewrite andb_true_iff. intros [H J]. split; [apply IH, H|apply IHm, J].
Qed.

Section Decide.
  Variable get_schema : bytes -> res value.
  Definition absentb (m : list (bytes * value)) (ks : list String.string) : bool := forallb (fun k => match kw k m with None => true | Some _ => false end) ks.
  Lemma absentb_ok m ks : absentb m ks = true -> absent m ks.
  Proof. unfold absentb, absent. rewrite forallb_forall. intros H k I. specialize (H k I). destruct (kw k m); [discriminate|reflexivity]. Qed.
  Fixpoint soundb (n : nat) (s : value) : bool :=
    match n, s with
    | O, _ => false
    | S n, VMap m =>
        match kw "$ref" m with Some (VStr u) => match get_schema u with Ok t => soundb n t | _ => false end | _ => true end &&
        match kw "properties" m with Some (VMap l) => forallb (fun kt => soundb n (snd kt)) l | Some _ => false | None => true end &&
        match kw "items" m with Some (VList l) => forallb (soundb n) l | Some t => soundb n t | None => true end &&
        forallb (fun k => match kw k m with Some (VList l) => forallb (soundb n) l | _ => true end) ["allOf"; "oneOf"; "anyOf"]%string
    | S _, _ => true
    end.
  Lemma soundb_ok n : forall s, soundb n s = true -> sound get_schema n s.
  Proof.
    induction n as [|n IH]; intros s H; [discriminate|]. destruct s as [| | | | | | |m|]; try (apply sound_other; discriminate).
    cbn [soundb] in H. rewrite !andb_true_iff in H. destruct H as [[[H1 H2] H3] H4]. apply sound_map.
    - intros u K. rewrite K in H1. destruct (get_schema u) as [t| | | |]; try discriminate. exists t. auto.
    - intros ps K. rewrite K in H2. destruct ps as [| | | | | | |l|]; try discriminate. rewrite forallb_forall in H2. exists l. split; [reflexivity|]. intros k t I. apply IH, (H2 _ I).
    - intros l t K I. rewrite K in H3. rewrite forallb_forall in H3. apply IH, H3, I.
    - intros t K NL. rewrite K in H3. apply IH. destruct t; try exact H3. destruct (NL _ eq_refl).
    - intros k l t Ik K I. rewrite forallb_forall in H4. specialize (H4 k Ik). rewrite K, forallb_forall in H4. apply IH, H4, I.
  Qed.
  Fixpoint simpleb (n : nat) (s : value) : bool :=
    match n, s with
    | O, _ => false
    | S n, VMap m =>
        match kw "default" m with Some _ => absentb m ["$ref"; "properties"; "items"; "allOf"; "oneOf"; "anyOf"]%string | None => false end ||
        match kw "$ref" m with Some (VStr u) => match get_schema u with Ok t => simpleb n t && absentb m ["default"; "properties"; "items"; "allOf"; "oneOf"; "anyOf"]%string | _ => false end | _ => false end ||
        absentb m ["$ref"; "default"; "allOf"; "oneOf"; "anyOf"]%string &&
        match kw "properties" m with Some (VMap l) => forallb (fun kt => simpleb n (snd kt)) l | Some _ => false | None => true end &&
        match kw "items" m with Some (VList l) => forallb (simpleb n) l | Some t => simpleb n t | None => true end
    | S _, _ => true
    end.
  Lemma simpleb_ok n : forall s, simpleb n s = true -> simple get_schema s.
  Proof.
    induction n as [|n IH]; intros s H; [discriminate|]. destruct s as [| | | | | | |m|]; try (apply simple_other; discriminate).
    cbn [simpleb] in H. rewrite !orb_true_iff, !andb_true_iff in H. destruct H as [[H|H]|[[H1 H2] H3]].
    - destruct (kw "default" m) as [x|] eqn:K; [|discriminate]. apply absentb_ok in H. eapply simple_default; eauto.
    - destruct (kw "$ref" m) as [[]|] eqn:K; try discriminate. destruct (get_schema s) as [t| | | |] eqn:G; try discriminate. apply andb_true_iff in H as [H1 H2]. apply absentb_ok in H2. eapply simple_ref; eauto.
    - apply absentb_ok in H1. apply simple_parts; [exact H1| | | |].
      + intros ps K. rewrite K in H2. destruct ps; try discriminate. eauto.
      + intros l k t K I. rewrite K, forallb_forall in H2. apply IH, (H2 _ I).
      + intros l t K I. rewrite K, forallb_forall in H3. apply IH, H3, I.
      + intros t K NL. rewrite K in H3. apply IH. destruct t; try exact H3. destruct (NL _ eq_refl).
  Qed.
End Decide.
