(** Variant values as trees, and std::map<std::string, Variant>. *)
From Verif Require Import Base Float.
Open Scope N_scope.

(** A Variant seen as a tree (include/Variant/Variant.h:61-71 Type_t,
    include/Variant/VariantInternal.h:70-83 the union).  A map is the sorted list
    of its entries; a blob is its list of buffers.  Sharing of storage between
    Variants is not visible here (see Heap.v for the model with sharing). *)
Inductive value : Type :=
| VNull
| VBool (b : bool)
| VInt (z : Z)
| VUns (n : N)
| VFlt (x : spec_float)
| VStr (s : bytes)
| VList (l : list value)
| VMap (m : list (bytes * value))
| VBlob (b : list bytes).

Section value_ind.
  Variable P : value -> Prop.
  Hypothesis HNull : P VNull.
  Hypothesis HBool : forall b, P (VBool b).
  Hypothesis HInt : forall z, P (VInt z).
  Hypothesis HUns : forall n, P (VUns n).
  Hypothesis HFlt : forall x, P (VFlt x).
  Hypothesis HStr : forall s, P (VStr s).
  Hypothesis HList : forall l, Forall P l -> P (VList l).
  Hypothesis HMap : forall m, Forall (fun kv => P (snd kv)) m -> P (VMap m).
  Hypothesis HBlob : forall b, P (VBlob b).
  Fixpoint value_ind' (v : value) : P v :=
    match v with
    | VNull => HNull | VBool b => HBool b | VInt z => HInt z | VUns n => HUns n
    | VFlt x => HFlt x | VStr s => HStr s | VBlob b => HBlob b
    | VList l => HList l ((fix go l := match l return Forall P l with
                           | [] => Forall_nil _
                           | x :: t => Forall_cons _ (value_ind' x) (go t) end) l)
    | VMap m => HMap m ((fix go m := match m return Forall (fun kv => P (snd kv)) m with
                           | [] => Forall_nil _
                           | kv :: t => Forall_cons kv (value_ind' (snd kv)) (go t) end) m)
    end.
End value_ind.

(** std::string operator< / compare: lexicographic on unsigned bytes. *)
Fixpoint bcmp (a b : bytes) : comparison :=
  match a, b with
  | [], [] => Eq
  | [], _ :: _ => Lt
  | _ :: _, [] => Gt
  | x :: a', y :: b' => match N.compare (bval x) (bval y) with Eq => bcmp a' b' | c => c end
  end.

Section Map.
  Context {A : Type}.
  (** std::map::find / count. *)
  Fixpoint mget (k : bytes) (m : list (bytes * A)) : option A :=
    match m with
    | [] => None
    | (k', v) :: t => if beqb k k' then Some v else mget k t
    end.
  (** m[k] = v: replace the entry or insert it in order. *)
  Fixpoint mset (k : bytes) (v : A) (m : list (bytes * A)) : list (bytes * A) :=
    match m with
    | [] => [(k, v)]
    | (k', v') :: t =>
        match bcmp k k' with
        | Eq => (k, v) :: t
        | Lt => (k, v) :: m
        | Gt => (k', v') :: mset k v t
        end
    end.
  (** m.erase(k). *)
  Fixpoint mdel (k : bytes) (m : list (bytes * A)) : list (bytes * A) :=
    match m with
    | [] => []
    | (k', v') :: t => if beqb k k' then t else (k', v') :: mdel k t
    end.
  Definition mkeys (m : list (bytes * A)) : list bytes := List.map fst m.
  (** Keys strictly increasing: the representation invariant of std::map. *)
  Fixpoint msorted (m : list (bytes * A)) : Prop :=
    match m with
    | [] => True
    | (k, _) :: t => (forall k', In k' (mkeys t) -> bcmp k k' = Lt) /\ msorted t
    end.
End Map.

(** A value that a Variant can hold: integers in range, floats well formed, maps
    in order, at every level. *)
Fixpoint vok (v : value) : Prop :=
  match v with
  | VNull | VBool _ | VStr _ | VBlob _ => True
  | VInt z => (- 2^63 <= z < 2^63)%Z
  | VUns n => n < 2^64
  | VFlt x => is_ldouble x
  | VList l => (fix go l := match l with [] => True | x :: t => vok x /\ go t end) l
  | VMap m => msorted m /\
              (fix go m := match m with [] => True | kv :: t => vok (snd kv) /\ go t end) m
  end.

(** ** Facts *)

Lemma bcmp_eq a b : bcmp a b = Eq <-> a = b.
Proof.
  revert b; induction a as [|x a IH]; intros [|y b]; cbn; split; intros H; try reflexivity; try discriminate.
  - destruct (N.compare_spec (bval x) (bval y)) as [E|E|E]; try discriminate.
    apply bval_inj in E. apply IH in H. congruence.
  - injection H as -> ->. rewrite N.compare_refl. apply IH. reflexivity.
Qed.

Lemma bcmp_refl a : bcmp a a = Eq.
Proof. apply bcmp_eq. reflexivity. Qed.

Lemma bcmp_antisym a b : bcmp a b = CompOpp (bcmp b a).
Proof.
  revert b; induction a as [|x a IH]; intros [|y b]; cbn; try reflexivity.
  rewrite (N.compare_antisym (bval x) (bval y)). destruct (bval x ?= bval y); cbn; auto.
Qed.

Lemma bcmp_lt_trans a b c : bcmp a b = Lt -> bcmp b c = Lt -> bcmp a c = Lt.
Proof.
  revert b c; induction a as [|x a IH]; intros [|y b] [|z c]; cbn; try discriminate; try reflexivity.
  destruct (N.compare_spec (bval x) (bval y)), (N.compare_spec (bval y) (bval z)); try discriminate; intros H1 H2.
  - replace (bval x) with (bval z) by congruence. rewrite N.compare_refl. eauto.
  - replace (bval x) with (bval y) by congruence. destruct (N.compare_spec (bval y) (bval z)); try lia. reflexivity.
  - replace (bval z) with (bval y) by congruence. destruct (N.compare_spec (bval x) (bval y)); try lia. reflexivity.
  - destruct (N.compare_spec (bval x) (bval z)); try lia. reflexivity.
Qed.

Lemma bcmp_lt_neq a b : bcmp a b = Lt -> a <> b.
Proof. intros H ->. rewrite bcmp_refl in H. discriminate. Qed.

Lemma bcmp_gt_lt a b : bcmp a b = Gt <-> bcmp b a = Lt.
Proof. rewrite bcmp_antisym. destruct (bcmp b a); cbn; split; congruence. Qed.

Section MapFacts.
  Context {A : Type}.
  Implicit Types m : list (bytes * A).

  Lemma mget_mset k k' v m : msorted m -> mget k' (mset k v m) = if beqb k' k then Some v else mget k' m.
  Proof.
    induction m as [|[k0 v0] m IH]; intros S; cbn.
    - reflexivity.
    - destruct S as [S1 S2]. destruct (bcmp k k0) eqn:C; cbn.
      + apply bcmp_eq in C. subst k0. destruct (beqb k' k); reflexivity.
      + reflexivity.
      + rewrite IH by exact S2. destruct (beqb k' k0) eqn:E; [|reflexivity].
        apply beqb_eq in E. subst k0. destruct (beqb k' k) eqn:E2; [|reflexivity].
        apply beqb_eq in E2. subst. rewrite bcmp_refl in C. discriminate.
  Qed.

  Lemma mkeys_mset k v m x : In x (mkeys (mset k v m)) -> x = k \/ In x (mkeys m).
  Proof.
    induction m as [|[k0 v0] m IH]; cbn; [intuition|].
    destruct (bcmp k k0) eqn:C; cbn; intuition.
  Qed.

  Lemma msorted_mset k v m : msorted m -> msorted (mset k v m).
  Proof.
    induction m as [|[k0 v0] m IH]; intros S; cbn.
    - split; [intros ? []|exact I].
    - destruct S as [S1 S2]. destruct (bcmp k k0) eqn:C; cbn.
      + apply bcmp_eq in C. subst k0. auto.
      + split; [|split; auto]. intros k' [<-|H]; [exact C|]. eapply bcmp_lt_trans; eauto.
      + split; [|auto]. intros k' H. apply mkeys_mset in H as [->|H]; [apply bcmp_gt_lt, C|auto].
  Qed.

  Lemma mget_In k v m : mget k m = Some v -> In (k, v) m.
  Proof.
    induction m as [|[k0 v0] m IH]; cbn; [discriminate|]. destruct (beqb k k0) eqn:E.
    - apply beqb_eq in E. intros [= ->]. left. congruence.
    - intros H. right. auto.
  Qed.

  Lemma mget_None_notin k m : mget k m = None <-> ~ In k (mkeys m).
  Proof.
    induction m as [|[k0 v0] m IH]; cbn; [intuition|]. destruct (beqb k k0) eqn:E.
    - apply beqb_eq in E. subst. split; [discriminate|intuition].
    - apply beqb_neq in E. rewrite IH. intuition.
  Qed.

  Lemma msorted_unique_keys k v v' m : msorted m -> In (k, v) m -> In (k, v') m -> v = v'.
  Proof.
    induction m as [|[k0 v0] m IH]; [intros _ []|]. intros [S1 S2] [E|H] [E'|H'].
    - congruence.
    - injection E as -> ->. exfalso. eapply bcmp_lt_neq; [apply S1|reflexivity].
      apply (in_map fst) in H'. exact H'.
    - injection E' as -> ->. exfalso. eapply bcmp_lt_neq; [apply S1|reflexivity].
      apply (in_map fst) in H. exact H.
    - eauto.
  Qed.

  Lemma In_mget k v m : msorted m -> In (k, v) m -> mget k m = Some v.
  Proof.
    intros S H. destruct (mget k m) as [v'|] eqn:E.
    - apply mget_In in E. f_equal. eapply msorted_unique_keys; eauto.
    - apply mget_None_notin in E. exfalso. apply E. apply (in_map fst) in H. exact H.
  Qed.

  (** A map is determined by its lookups. *)
  Lemma msorted_ext m1 m2 : msorted m1 -> msorted m2 -> (forall k, mget k m1 = mget k m2) -> m1 = m2.
  Proof.
    revert m2. induction m1 as [|[k1 v1] m1 IH]; intros [|[k2 v2] m2] S1 S2 H.
    - reflexivity.
    - specialize (H k2). cbn in H. rewrite beqb_refl in H. discriminate.
    - specialize (H k1). cbn in H. rewrite beqb_refl in H. discriminate.
    - destruct S1 as [A1 B1]. destruct S2 as [A2 B2].
      assert (K : k1 = k2).
      { destruct (bcmp k1 k2) eqn:C.
        - apply bcmp_eq, C.
        - specialize (H k1). cbn in H. rewrite beqb_refl in H.
          assert (N : beqb k1 k2 = false) by (apply beqb_neq, bcmp_lt_neq, C). rewrite N in H.
          symmetry in H. apply mget_In, (in_map fst) in H. cbn in H. apply A2 in H.
          pose proof (bcmp_lt_trans _ _ _ H C) as T. rewrite bcmp_refl in T. discriminate.
        - apply bcmp_gt_lt in C. specialize (H k2). cbn in H. rewrite beqb_refl in H.
          assert (N : beqb k2 k1 = false) by (apply beqb_neq, bcmp_lt_neq, C). rewrite N in H.
          apply mget_In, (in_map fst) in H. cbn in H. apply A1 in H.
          pose proof (bcmp_lt_trans _ _ _ H C) as T. rewrite bcmp_refl in T. discriminate. }
      subst k2.
      assert (V : v1 = v2).
      { specialize (H k1). cbn in H. rewrite beqb_refl in H. congruence. }
      subst v2. f_equal. apply IH; auto. intros k. specialize (H k). cbn in H.
      destruct (beqb k k1) eqn:E; [|exact H]. apply beqb_eq in E. subst k.
      assert (N1 : mget k1 m1 = None).
      { apply mget_None_notin. intros K. apply A1 in K. rewrite bcmp_refl in K. discriminate. }
      assert (N2 : mget k1 m2 = None).
      { apply mget_None_notin. intros K. apply A2 in K. rewrite bcmp_refl in K. discriminate. }
      congruence.
  Qed.

  (** Appending a key larger than all others. *)
  Lemma mset_last k v m : (forall k', In k' (mkeys m) -> bcmp k' k = Lt) -> mset k v m = m ++ [(k, v)].
  Proof.
    induction m as [|[k0 v0] m IH]; intros H; cbn; [reflexivity|].
    assert (C : bcmp k k0 = Gt) by (apply bcmp_gt_lt, H; left; reflexivity). rewrite C.
    f_equal. apply IH. intros k' K. apply H. right. exact K.
  Qed.

  Lemma mdel_notin k m : ~ In k (mkeys m) -> mdel k m = m.
  Proof.
    induction m as [|[k0 v0] m IH]; cbn; [reflexivity|]. intros H.
    destruct (beqb k k0) eqn:E; [apply beqb_eq in E; subst; intuition|]. f_equal. intuition.
  Qed.

  Lemma mkeys_mdel_In k m x : In x (mkeys (mdel k m)) -> In x (mkeys m).
  Proof.
    induction m as [|[k0 v0] m IH]; cbn; [auto|]. destruct (beqb k k0); cbn; intuition.
  Qed.

  Lemma msorted_mdel k m : msorted m -> msorted (mdel k m).
  Proof.
    induction m as [|[k0 v0] m IH]; cbn; [auto|]. intros [S1 S2]. destruct (beqb k k0); [exact S2|].
    cbn. split; [|auto]. intros k' H. apply S1. eapply mkeys_mdel_In, H.
  Qed.

  Lemma mget_mdel k k' m : msorted m -> mget k' (mdel k m) = if beqb k' k then None else mget k' m.
  Proof.
    induction m as [|[k0 v0] m IH]; intros S; cbn; [destruct (beqb k' k); reflexivity|].
    destruct S as [S1 S2]. destruct (beqb k k0) eqn:E.
    - apply beqb_eq in E. subst k0. destruct (beqb k' k) eqn:E2; [|reflexivity].
      apply beqb_eq in E2. subst. apply mget_None_notin. intros K. apply S1 in K. rewrite bcmp_refl in K. discriminate.
    - cbn. rewrite IH by exact S2. destruct (beqb k' k0) eqn:E2; [|reflexivity].
      apply beqb_eq in E2. subst k0. destruct (beqb k' k) eqn:E3; [|reflexivity].
      apply beqb_eq in E3. subst. rewrite beqb_refl in E. discriminate.
  Qed.
End MapFacts.

Lemma vok_list l : vok (VList l) <-> Forall vok l.
Proof.
  induction l as [|x l IH]; split; intros H.
  - constructor.
  - exact I.
  - destruct H as [H1 H2]. constructor; [exact H1|]. apply IH, H2.
  - inversion H; subst. split; [assumption|]. apply IH. assumption.
Qed.

Lemma vok_map m : vok (VMap m) <-> msorted m /\ Forall (fun kv => vok (snd kv)) m.
Proof.
  cbn [vok].
  assert (K : (fix go m := match m with [] => True | kv :: t => vok (snd kv) /\ go t end) m <-> Forall (fun kv => vok (snd kv)) m).
  { induction m as [|x m IH]; split; intros H.
    - constructor.
    - exact I.
    - destruct H as [H1 H2]. constructor; [exact H1|]. apply IH, H2.
    - inversion H; subst. split; [assumption|]. apply IH. assumption. }
  tauto.
Qed.
