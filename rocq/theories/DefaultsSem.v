(** AddSchemaDefaults seen from the place it works on. *)
From Verif Require Import Base Value Path ValueOps ParserInput DiffRun Schema Defaults.
Open Scope N_scope.

(** ** More about setting *)

Lemma vset_app v p q y : vset v (p ++ q) y =
  match vset (match vat v p with Some w => w | None => VNull end) q y with Some z => vset v p z | None => None end.
Proof.
  revert v. induction p as [|e p IH]; intros v; cbn [List.app vat vset].
  - destruct (vset v q y); reflexivity.
  - rewrite IH. destruct (vchild v e) as [w|]; [|replace (match vat VNull p with Some w => w | None => VNull end) with VNull by (destruct (vat_null p) as [->| ->]; reflexivity)].
    + destruct (vset _ q y); reflexivity.
    + destruct (vset _ q y); reflexivity.
Qed.
Lemma vat_app v p q : vat v (p ++ q) = match vat v p with Some w => vat w q | None => None end.
Proof. revert v. induction p as [|e p IH]; intros v; cbn [List.app vat]; [reflexivity|]. destruct (vchild v e); [apply IH|reflexivity]. Qed.
Lemma vset_same root p x : vsorted root -> vat root p = Some x -> vset root p x = Some root.
Proof.
  revert root. induction p as [|e p IH]; intros root K; cbn [vat vset]; [congruence|]. destruct (vchild root e) as [w|] eqn:C; [|discriminate].
  intros A. rewrite IH by eauto using vsorted_child. apply vset_elem_same; assumption.
Qed.
Lemma vat_sorted v p w : vsorted v -> vat v p = Some w -> vsorted w.
Proof.
  revert v. induction p as [|e p IH]; intros v K; cbn [vat]; [congruence|]. destruct (vchild v e) eqn:C; [|discriminate]. apply IH. eapply vsorted_child; eauto.
Qed.

(** Something can be put at [p]: what is there on the way is a container of the right kind. *)
Definition viable (root : value) (p : path) : Prop :=
  forall q e r, p = q ++ e :: r -> match vat root q with None => True | Some w => kind_for e w end.
Lemma viable_nil root : viable root [].
Proof. intros [|] e r E; discriminate. Qed.
Lemma viable_vset root p x : viable root p -> exists r, vset root p x = Some r.
Proof.
  intros V. destruct (vset root p x) as [r|] eqn:E; [eauto|]. apply vset_fails in E as (q & e & r & w & E & A & _ & N).
  specialize (V q e r E). rewrite A in V. contradiction.
Qed.
Lemma viable_kept root p x r : vsorted root -> viable root p -> vset root p x = Some r -> viable r p.
Proof.
  intros K V E q e t ->. destruct (vat_vset_above root q e t x r K E) as [_ (w & -> & Q)]. exact Q.
Qed.
Lemma viable_more root p e : viable root p -> match vat root p with None => True | Some w => kind_for e w end -> viable root (p ++ [e]).
Proof.
  intros V H q f r E. destruct r as [|g r] using rev_ind.
  - apply app_inj_tail in E as [-> ->]. exact H.
  - rewrite app_comm_cons, app_assoc in E. apply app_inj_tail in E as [-> _]. exact (V q f r eq_refl).
Qed.

(** ** Places *)

(** What is at a place, or nothing. *)
Notation slot := (option value).
Definition now (o : slot) : value := match o with Some w => w | None => VNull end.
Definition child (o : slot) (e : pelem) : slot := match o with Some v => vchild v e | None => None end.
Definition osorted (o : slot) : Prop := match o with Some v => vsorted v | None => True end.
Definition write (root : value) (p : path) (o : slot) : res value := match o with Some x => put root p x | None => Ok root end.
Definition set_in (o : slot) (e : pelem) (c : slot) : res slot :=
  match c with
  | None => Ok o
  | Some x => match vset_elem (now o) e x with Some v => Ok (Some v) | None => Throw UnexpectedTypeError end
  end.
Definition fits (e : pelem) (o : slot) : Prop := match o with None => True | Some w => kind_for e w end.

(** [f] on a document does what [g] does on the place. *)
Definition acts (V : slot -> Prop) (f : value -> path -> res value) (g : slot -> res slot) : Prop :=
  (forall root p, vsorted root -> viable root p -> V (vat root p) -> f root p = do o <- g (vat root p); write root p o) /\
  (forall o o', osorted o -> V o -> g o = Ok o' -> osorted o' /\ V o' /\ (o <> None -> o' <> None)).
Definition anything (o : slot) : Prop := True.

Lemma acts_id V : acts V (fun root _ => Ok root) (fun o => Ok o).
Proof.
  split.
  - intros root p K _ _. cbn [rbind]. destruct (vat root p) as [x|] eqn:A; cbn [write]; [|reflexivity]. unfold put. rewrite (vset_same root p x K A). reflexivity.
  - intros o o' S H E. injection E as <-. auto.
Qed.
Lemma acts_seq V f1 f2 g1 g2 : acts V f1 g1 -> acts V f2 g2 ->
  acts V (fun r p => do r <- f1 r p; f2 r p) (fun o => do o <- g1 o; g2 o).
Proof.
  intros [A1 B1] [A2 B2]. split.
  - intros root p K W H. assert (SO : osorted (vat root p)) by (destruct (vat root p) eqn:A; [eapply vat_sorted; eauto|exact I]).
    rewrite A1 by assumption. destruct (g1 (vat root p)) as [o1|e| | |] eqn:G1; cbn [rbind]; try reflexivity.
    destruct (B1 _ _ SO H G1) as (S1 & H1 & N1). destruct o1 as [x|]; cbn [write].
    + destruct (viable_vset root p x W) as [r1 E1]. unfold put. rewrite E1. cbn [rbind].
      assert (K1 : vsorted r1) by (exact (vset_sorted p root x r1 K S1 E1)). assert (V1 : vat r1 p = Some x).
      { pose proof (vat_vset root p x r1 [] K E1) as Q. rewrite app_nil_r in Q. exact Q. }
      rewrite A2; [|assumption|exact (viable_kept root p x r1 K W E1)|rewrite V1; assumption]. rewrite V1.
      destruct (g2 (Some x)) as [o2| | | |] eqn:G2; cbn [rbind]; try reflexivity. destruct (B2 _ _ S1 H1 G2) as (_ & _ & N2).
      destruct o2 as [y|]; [|destruct N2; [discriminate|reflexivity]]. cbn [write]. unfold put. rewrite (vset_vset p root x y r1 E1 K). reflexivity.
    + cbn [rbind]. destruct (vat root p) as [w|] eqn:A; [destruct N1; [discriminate|reflexivity]|]. rewrite A2 by (try rewrite A; assumption). rewrite A. reflexivity.
  - intros o o' S H E. destruct (g1 o) as [o1| | | |] eqn:G1; try discriminate. cbn [rbind] in E. destruct (B1 _ _ S H G1) as (S1 & H1 & N1).
    destruct (B2 _ _ S1 H1 E) as (S2 & H2 & N2). auto.
Qed.
Definition inner (e : pelem) (g : slot -> res slot) (o : slot) : res slot := do c <- g (child o e); set_in o e c.
Lemma now_sorted o : osorted o -> vsorted (now o).
Proof. destruct o; cbn; auto. Qed.
Lemma acts_inner e f g : acts anything f g -> acts (fits e) (fun r p => f r (p ++ [e])) (inner e g).
Proof.
  intros [A B]. split.
  - intros root p K W H. rewrite A; [|assumption|apply viable_more; assumption|exact I]. unfold inner.
    replace (vat root (p ++ [e])) with (child (vat root p) e) by (rewrite vat_app; destruct (vat root p) as [w|]; [cbn; destruct (vchild w e); reflexivity|reflexivity]).
    destruct (g (child (vat root p) e)) as [c| | | |]; cbn [rbind]; try reflexivity. destruct c as [x|]; cbn [write set_in rbind].
    + unfold put. rewrite vset_app. cbn [vset]. fold (now (vat root p)). destruct (vset_elem (now (vat root p)) e x) as [v|]; reflexivity.
    + symmetry. exact (eq_sym (proj1 (acts_id anything) root p K W I)).
  - intros o o' S H E. unfold inner in E. destruct (g (child o e)) as [c| | | |] eqn:G; try discriminate. cbn [rbind] in E.
    assert (SC : osorted (child o e)). { destruct o as [v|]; [|exact I]. cbn. destruct (vchild v e) eqn:C; [eapply vsorted_child; eauto|exact I]. }
    destruct (B _ _ SC I G) as (Sc & _ & N). destruct c as [x|]; cbn [set_in] in E; [|injection E as <-; auto].
    destruct (vset_elem (now o) e x) as [v|] eqn:Q; [|discriminate]. injection E as <-. split; [exact (vset_elem_sorted (now o) e x v (now_sorted o S) Sc Q)|].
    split; [exact (proj2 (vset_elem_kind _ _ _ _ Q))|discriminate].
Qed.
Lemma acts_weaken (V : slot -> Prop) f g : acts anything f g -> (forall o o', osorted o -> V o -> g o = Ok o' -> V o') -> acts V f g.
Proof.
  intros [A B] H. split; [intros; apply A; auto; exact I|]. intros o o' S Q E. destruct (B o o' S I E) as (S' & _ & N). eauto.
Qed.
Lemma acts_when (t : slot -> bool) f g : acts (fun o => t o = true) f g ->
  acts anything (fun r p => if t (vat r p) then f r p else Ok r) (fun o => if t o then g o else Ok o).
Proof.
  intros [A B]. split.
  - intros root p K W _. destruct (t (vat root p)) eqn:T; [apply A; auto|]. exact (proj1 (acts_id anything) root p K W I).
  - intros o o' S _ E. destruct (t o) eqn:T; [destruct (B o o' S T E) as (? & _ & ?); repeat split; auto|]. injection E as <-. repeat split; auto.
Qed.
Lemma acts_iff (V W : slot -> Prop) f g : (forall o, V o <-> W o) -> acts V f g -> acts W f g.
Proof.
  intros E [A B]. split; [intros; apply A; auto; apply E; auto|]. intros o o' S H G. destruct (B o o' S) as (? & ? & ?); auto; [apply E; auto|]. repeat split; auto. apply E; auto.
Qed.
Lemma acts_fail V e : acts V (fun _ _ => Throw e) (fun _ => Throw e).
Proof. split; [reflexivity|]. intros; discriminate. Qed.
Lemma acts_ext V f f' g : (forall r p, f r p = f' r p) -> acts V f g -> acts V f' g.
Proof. intros E [A B]. split; auto. intros. rewrite <- E. auto. Qed.

(** ** The function on a place *)

Section Local.
  Variable get_schema : bytes -> res value.
  Section Sub.
    Variable sub : value -> slot -> res slot.
    Fixpoint l_each (l : list value) (o : slot) : res slot :=
      match l with [] => Ok o | s :: t => do o <- sub s o; l_each t o end.
    Definition l_list (v : option value) (o : slot) : res slot := match v with Some (VList l) => l_each l o | _ => Ok o end.
    Fixpoint l_properties (ps : list (bytes * value)) (o : slot) : res slot :=
      match ps with [] => Ok o | (k, s) :: t => do o <- inner (PKey k) (sub s) o; l_properties t o end.
    Fixpoint l_items (ss : list value) (i : N) (o : slot) : res slot :=
      match ss with [] => Ok o | s :: t => do o <- inner (PIdx i) (sub s) o; l_items t (i + 1) o end.
    Definition l_props (v : value) (o : slot) : res slot :=
      match v with VMap l => l_properties l o | VNull => Ok o | _ => Throw UnableToConvertError end.
    Definition l_item (v : value) (o : slot) : res slot :=
      match v with VList ss => l_items (counted ss) 0 o | _ => inner (PIdx 0) (sub v) o end.
    Definition l_rest (m : list (bytes * value)) (o : slot) : res slot :=
      do o <- match key "properties" m with Some ps => if for_map o then l_props ps o else Ok o | None => Ok o end;
      do o <- match key "items" m with Some s => if for_list o then l_item s o else Ok o | None => Ok o end;
      do o <- l_list (key "allOf" m) o;
      do o <- l_list (key "oneOf" m) o;
      l_list (key "anyOf" m) o.
    Definition l_map (m : list (bytes * value)) (o : slot) : res slot :=
      do o <- match key "$ref" m with Some (VStr u) => do s <- get_schema u; sub s o | _ => Ok o end;
      match key "default" m with
      | Some x => if is_absent o then Ok (Some x) else l_rest m o
      | None => l_rest m o
      end.
  End Sub.
  Fixpoint local (fuel : nat) (schema : value) (o : slot) : res slot :=
    match fuel with
    | O => Fuel
    | S f => match schema with VMap m => l_map (local f) m o | _ => Ok o end
    end.

  Hypothesis sorted_schemas : forall u s, get_schema u = Ok s -> vsorted s.
  Section Acts.
    Variable sub : value -> value -> path -> res value.
    Variable lsub : value -> slot -> res slot.
    Hypothesis A : forall s, vsorted s -> acts anything (sub s) (lsub s).

    Lemma each_acts l : Forall vsorted l -> acts anything (each_default sub l) (l_each lsub l).
    Proof. induction 1; cbn [each_default l_each]; [apply acts_id|]. apply acts_seq; auto. Qed.
    Lemma list_acts o : (forall v, o = Some v -> vsorted v) -> acts anything (list_defaults sub o) (l_list lsub o).
    Proof.
      intros S. destruct o as [v|]; [|apply acts_id]. unfold list_defaults, l_list. destruct v; try apply acts_id. apply each_acts, vsorted_list. auto.
    Qed.
    Lemma fits_key k o : fits (PKey k) o <-> for_map o = true.
    Proof. destruct o as [[]|]; cbn; split; intros H; try discriminate; eauto; destruct H; discriminate. Qed.
    Lemma fits_idx i o : fits (PIdx i) o <-> for_list o = true.
    Proof. destruct o as [[]|]; cbn; split; intros H; try discriminate; eauto; destruct H; discriminate. Qed.
    Lemma properties_acts l : Forall (fun kv => vsorted (snd kv)) l -> acts (fun o => for_map o = true) (property_defaults sub l) (l_properties lsub l).
    Proof.
      induction l as [|[k s] l IH]; intros F; cbn [property_defaults l_properties]; [apply acts_id|]. inversion_clear F.
      apply (acts_seq _ (fun r p => sub s r (p ++ [PKey k]))); [|auto]. apply (acts_iff (fits (PKey k))); [apply fits_key|]. apply acts_inner, A. assumption.
    Qed.
    Lemma items_acts l : Forall vsorted l -> forall i, acts (fun o => for_list o = true) (item_defaults sub l i) (l_items lsub l i).
    Proof.
      induction l as [|s l IH]; intros F i; cbn [item_defaults l_items]; [apply acts_id|]. inversion_clear F.
      apply (acts_seq _ (fun r p => sub s r (p ++ [PIdx i]))); [|auto]. apply (acts_iff (fits (PIdx i))); [apply fits_idx|]. apply acts_inner, A. assumption.
    Qed.
    Lemma counted_forall {X} (P : X -> Prop) l : Forall P l -> Forall P (counted l).
    Proof. intros F. unfold counted. rewrite Forall_forall in *. intros x I. apply F. unfold take in I. revert I. generalize (N.to_nat (wrap32 (llen l))). clear. intros n. revert l. induction n as [|n IH]; intros [|y l]; cbn; auto; try contradiction. intros [H|H]; eauto. Qed.
    Lemma map_acts m : vsorted (VMap m) -> acts anything (map_defaults get_schema sub m) (l_map lsub m).
    Proof.
      intros S. apply vsorted_map in S as [_ S]. assert (K : forall k v, key k m = Some v -> vsorted v).
      { intros k v E. apply mget_In in E. rewrite Forall_forall in S. apply (S _ E). }
      unfold map_defaults, l_map. apply (acts_seq _ (fun r p => match key "$ref" m with Some (VStr u) => do s <- get_schema u; sub s r p | _ => Ok r end)).
      { destruct (key "$ref" m) as [[]|]; try apply acts_id. destruct (get_schema s) as [t| | | |] eqn:G; cbn [rbind]; [apply A; eauto| | | |]; (split; [reflexivity|intros; discriminate]). }
      assert (R : acts anything (rest_defaults sub m) (l_rest lsub m)).
      { unfold rest_defaults, l_rest.
        apply (acts_seq _ (fun r p => match key "properties" m with Some ps => if for_map (vat r p) then properties_defaults sub ps r p else Ok r | None => Ok r end)).
        { destruct (key "properties" m) as [ps|] eqn:E; [|apply acts_id]. apply (acts_when for_map (properties_defaults sub ps) (l_props lsub ps)).
          unfold properties_defaults, l_props. destruct ps; try apply acts_fail; [apply acts_id|]. apply properties_acts. apply K in E. apply vsorted_map in E. apply E. }
        apply (acts_seq _ (fun r p => match key "items" m with Some ps => if for_list (vat r p) then items_defaults sub ps r p else Ok r | None => Ok r end)).
        { destruct (key "items" m) as [ps|] eqn:E; [|apply acts_id]. apply K in E.
          apply (acts_when for_list (items_defaults sub ps) (l_item lsub ps)).
          unfold items_defaults, l_item. destruct ps; try (apply (acts_iff (fits (PIdx 0))); [apply fits_idx|]; apply (acts_inner (PIdx 0)), A, E).
          apply items_acts, counted_forall, vsorted_list, E. }
        apply acts_seq; [apply list_acts; eauto|]. apply acts_seq; [apply list_acts; eauto|]. apply list_acts; eauto. }
      destruct (key "default" m) as [x|] eqn:E; [|exact R]. apply K in E. destruct R as [R1 R2]. split.
      - intros root p Ks W _. destruct (is_absent (vat root p)); [reflexivity|apply R1; auto; exact I].
      - intros o o' So _ G. destruct (is_absent o); [injection G as <-; repeat split; [exact E|discriminate]|apply R2; auto; exact I].
    Qed.
  End Acts.

  Theorem defaults_local fuel s : vsorted s -> acts anything (defaults get_schema fuel s) (local fuel s).
  Proof.
    revert s. induction fuel as [|f IH]; intros s S; [split; [reflexivity|intros; discriminate]|]. cbn [defaults local].
    destruct s; try apply acts_id. apply map_acts; assumption.
  Qed.
End Local.
