(** The keywords determine one meaning of the schemas in the vocabulary. *)
From Verif Require Import Base Float Value NumberSpec P_Equal ParserInput SchemaSem.
From Coq Require Import Reals.
Open Scope N_scope.

Section Meaning.
  Variable rx : bytes -> option (bytes -> bool).
  Variable get_schema : bytes -> res value.

  Section Same.
    Variables U H G : value -> value -> Prop.
    Hypothesis E : forall s d, U s d -> (H s d <-> G s d).
    Variable m : list (bytes * value).

    Lemma additional_same k x : w_additional U m k x -> (additional H m k x <-> additional G m k x).
    Proof.
      unfold w_additional, additional. intros W. destruct (kw k m) as [s|]; [|tauto]. destruct (W s eq_refl) as [Us|[b ->]]; [|tauto].
      specialize (E s x Us). destruct s; tauto.
    Qed.

    Lemma meets_same d : usable_map rx get_schema U m d -> (meets rx get_schema H m d <-> meets rx get_schema G m d).
    Proof.
      intros [_ W]. unfold meets. destruct (kw "$ref" m) as [r|] eqn:R.
      - destruct r; try (destruct W; fail). destruct W as (_ & s1 & E1 & Us). specialize (E s1 d Us).
        split; intros (s' & Es & Q); exists s'; (split; [exact Es|]); rewrite E1 in Es; injection Es as <-; tauto.
      - destruct W as (_ & _ & _ & Wa & Wo & Wc).
        assert (A : m_array H m d <-> m_array G m d).
        { unfold m_array. enough (X : forall l, d = VList l -> (m_items H m l <-> m_items G m l)) by (split; intros Q l L; specialize (X l L); specialize (Q l L); tauto).
          intros l L. destruct (Wa l L) as (_ & _ & _ & _ & Wi). unfold m_items. destruct (kw "items" m) as [b|]; [|tauto]. specialize (Wi b eq_refl).
          assert (Y : Forall (U b) l -> (Forall (H b) l <-> Forall (G b) l)).
          { rewrite !Forall_forall. intros F. split; intros Q x X; apply E; auto. }
          destruct b; try (apply Y; exact Wi). destruct Wi as [_ Wi].
          assert (Z : forall i x, nth_error l i = Some x ->
            (match nth_error l0 i with Some s => H s x | None => additional H m "additionalItems" x end <-> match nth_error l0 i with Some s => G s x | None => additional G m "additionalItems" x end)).
          { intros i x N. specialize (Wi i x N). destruct (nth_error l0 i); [apply E; exact Wi|apply additional_same; exact Wi]. }
          split; intros Q i x N; apply (Z i x N), (Q i x N). }
        assert (B : m_object rx H m d <-> m_object rx G m d).
        { unfold m_object.
          enough (X : forall fs, d = VMap fs ->
            ((forall k x, mget k fs = Some x -> (forall s, named_schema m k s -> H s x) /\ (forall s, matching_schema rx m k s -> H s x) /\ ((forall s, ~ named_schema m k s) -> (forall s, ~ matching_schema rx m k s) -> additional H m "additionalProperties" x)) <->
             (forall k x, mget k fs = Some x -> (forall s, named_schema m k s -> G s x) /\ (forall s, matching_schema rx m k s -> G s x) /\ ((forall s, ~ named_schema m k s) -> (forall s, ~ matching_schema rx m k s) -> additional G m "additionalProperties" x))) /\
            (forall deps k dep, kw "dependencies" m = Some (VMap deps) -> mget k deps = Some dep ->
              (match dep with VList l => forall k', In (VStr k') l -> mget k' fs <> None | s => H s d end <-> match dep with VList l => forall k', In (VStr k') l -> mget k' fs <> None | s => G s d end))).
          { split; intros Q fs F; destruct (X fs F) as [X1 X2]; destruct (Q fs F) as (Q1 & Q2 & Q3 & Q4); (split; [exact Q1|]); (split; [exact Q2|]); (split; [apply X1; exact Q3|]);
              intros deps k dep K M N; apply (X2 deps k dep K M), (Q4 deps k dep K M N). }
          intros fs F. destruct (Wo fs F) as (_ & _ & _ & _ & _ & _ & We & Wd). split.
          - assert (Z : forall k x, mget k fs = Some x ->
              ((forall s, named_schema m k s -> H s x) <-> (forall s, named_schema m k s -> G s x)) /\
              ((forall s, matching_schema rx m k s -> H s x) <-> (forall s, matching_schema rx m k s -> G s x)) /\
              (additional H m "additionalProperties" x <-> additional G m "additionalProperties" x)).
            { intros k x K. destruct (We k x K) as (W1 & W2 & W3). split; [|split].
              - split; intros Q s N; apply (E s x (W1 s N)), (Q s N).
              - split; intros Q s N; apply (E s x (W2 s N)), (Q s N).
              - apply additional_same. exact W3. }
            split; intros Q k x K; destruct (Z k x K) as (Z1 & Z2 & Z3); destruct (Q k x K) as (Q1 & Q2 & Q3); (split; [apply Z1, Q1|]); (split; [apply Z2, Q2|]); intros N1 N2; apply Z3, Q3; assumption.
          - intros deps k dep K M. destruct (Wd _ K) as (deps' & D & _ & Wd'). injection D as <-. specialize (Wd' k dep M).
            destruct dep; try (destruct Wd'; fail); [tauto|apply E; exact Wd']. }
        assert (C : m_combinations H m d <-> m_combinations G m d).
        { destruct Wc as (Wl & Wy & W1 & Wn). unfold m_combinations. unfold w_schemas in *.
          assert (F : forall l s, Forall (fun s => U s d) l -> In s l -> (H s d <-> G s d)) by (intros l s F I; rewrite Forall_forall in F; apply E, F, I).
          assert (X1 : forall l, kw "allOf" m = Some (VList l) -> (Forall (fun s => H s d) l <-> Forall (fun s => G s d) l)).
          { intros l K. destruct (Wl _ K) as (l' & Q & Fl). injection Q as <-. rewrite !Forall_forall. split; intros Q s I; apply (F l s Fl I), (Q s I). }
          assert (X2 : forall l, kw "anyOf" m = Some (VList l) -> (Exists (fun s => H s d) l <-> Exists (fun s => G s d) l)).
          { intros l K. destruct (Wy _ K) as (l' & Q & Fl). injection Q as <-. rewrite !Exists_exists. split; intros (s & I & Q); exists s; (split; [exact I|]); apply (F l s Fl I), Q. }
          assert (X3 : forall l, kw "oneOf" m = Some (VList l) ->
            ((exists l1 s l2, l = l1 ++ s :: l2 /\ H s d /\ Forall (fun s => ~ H s d) (l1 ++ l2)) <-> (exists l1 s l2, l = l1 ++ s :: l2 /\ G s d /\ Forall (fun s => ~ G s d) (l1 ++ l2)))).
          { intros l K. destruct (W1 _ K) as (l' & Q & Fl). injection Q as <-.
            split; intros (l1 & s & l2 & D & Hs & N); exists l1, s, l2; (split; [exact D|]);
              (split; [apply (F l s Fl); [rewrite D; apply in_elt|exact Hs]|]); rewrite Forall_forall in N |- *; intros t I Q; apply (N t I), (F l t Fl); try exact Q;
              rewrite D; apply in_app_iff; apply in_app_iff in I; cbn; tauto. }
          assert (X4 : forall s, kw "not" m = Some s -> (H s d <-> G s d)) by (intros s K; apply E, Wn, K).
          split; intros (Q1 & Q2 & Q3 & Q4); (split; [intros l K; apply (X1 l K), (Q1 l K)|]); (split; [intros l K; apply (X2 l K), (Q2 l K)|]); (split; [intros l K; apply (X3 l K), (Q3 l K)|]);
            intros s K Q; apply (Q4 s K), (X4 s K), Q. }
        tauto.
    Qed.
  End Same.

  Section More.
    Variables U V : value -> value -> Prop.
    Hypothesis E : forall s d, U s d -> V s d.
    Lemma usable_map_more m d : usable_map rx get_schema U m d -> usable_map rx get_schema V m d.
    Proof.
      assert (A : forall k x, w_additional U m k x -> w_additional V m k x) by (intros k x W s K; destruct (W s K); auto).
      intros [D W]. split; [exact D|]. destruct (kw "$ref" m) as [r|].
      - destruct r; try exact W. destruct W as (X & s1 & G & Us). eauto.
      - destruct W as (W1 & W2 & W3 & Wa & Wo & Wc). do 3 (split; [assumption|]). split; [|split].
        + intros l L. destruct (Wa l L) as (Q1 & Q2 & Q3 & Q4 & Wi). do 4 (split; [assumption|]). intros b K. specialize (Wi b K).
          assert (Y : Forall (U b) l -> Forall (V b) l) by (rewrite !Forall_forall; auto).
          destruct b; try (apply Y; exact Wi). destruct Wi as [Q Wi]. split; [exact Q|]. intros i x N. specialize (Wi i x N). destruct (nth_error l0 i); auto.
        + intros fs F. destruct (Wo fs F) as (Q1 & Q2 & Q3 & Q4 & Q5 & Q6 & We & Wd). do 6 (split; [assumption|]). split.
          * intros k x K. destruct (We k x K) as (X1 & X2 & X3). split; [|split]; auto.
          * intros b K. destruct (Wd b K) as (deps & D1 & D2 & D3). exists deps. do 2 (split; [assumption|]). intros k dep M. specialize (D3 k dep M). destruct dep; auto.
        + destruct Wc as (X1 & X2 & X3 & X4). unfold w_combinations, w_schemas in *.
          assert (F : forall l, Forall (fun s => U s d) l -> Forall (fun s => V s d) l) by (intros l; rewrite !Forall_forall; auto).
          split; [|split; [|split]]; [intros b K; destruct (X1 b K) as (l & L & Q); eauto|intros b K; destruct (X2 b K) as (l & L & Q); eauto|intros b K; destruct (X3 b K) as (l & L & Q); eauto|auto].
    Qed.
  End More.

  Lemma usable_S n s d : usable rx get_schema n s d -> usable rx get_schema (S n) s d.
  Proof.
    revert s d. induction n as [|n IH]; intros s d W; [destruct W|]. destruct s as [| | | | | | |m|]; try exact I.
    cbn [usable] in W. change (usable_map rx get_schema (usable rx get_schema (S n)) m d). exact (usable_map_more _ _ IH m d W).
  Qed.

  (** [n] schemas one inside the other. *)
  Fixpoint sat (n : nat) (s d : value) : Prop :=
    match n with O => False | S n => match s with VMap m => meets rx get_schema (sat n) m d | _ => True end end.
  Lemma sat_S n s d : usable rx get_schema n s d -> (sat n s d <-> sat (S n) s d).
  Proof.
    revert s d. induction n as [|n IH]; intros s d W; [destruct W|]. destruct s as [| | | | | | |m|]; try reflexivity.
    change (meets rx get_schema (sat n) m d <-> meets rx get_schema (sat (S n)) m d). apply (meets_same (usable rx get_schema n)); [exact IH|exact W].
  Qed.
  Lemma sat_more n k s d : usable rx get_schema n s d -> usable rx get_schema (k + n) s d /\ (sat n s d <-> sat (k + n) s d).
  Proof.
    intros W. induction k as [|k [IU IS]]; [tauto|]. cbn [Nat.add]. split; [apply usable_S, IU|]. rewrite <- (sat_S _ _ _ IU). exact IS.
  Qed.

  (** Satisfaction, of schemas in the vocabulary. *)
  Definition satisfies (s d : value) : Prop := exists n, usable rx get_schema n s d /\ sat n s d.
  Lemma satisfies_sat n s d : usable rx get_schema n s d -> (satisfies s d <-> sat n s d).
  Proof.
    intros W. split; [|intros Q; exists n; auto]. intros (k & Wk & Q).
    destruct (sat_more n (k - n) s d W) as [_ E1]. destruct (sat_more k (n - k) s d Wk) as [_ E2].
    destruct (Nat.le_ge_cases k n) as [L|L].
    - replace (n - k + k)%nat with n in E2 by lia. tauto.
    - replace (k - n + n)%nat with k in E1 by lia. tauto.
  Qed.
  Theorem satisfies_means : means_schemas rx get_schema satisfies.
  Proof.
    intros [|n] s d W; [destruct W|]. pose proof (satisfies_sat _ s d W) as Q. destruct s as [| | | | | | |m|]; try (apply Q; exact I).
    cbn [sat] in Q. rewrite Q. apply (meets_same (usable rx get_schema n)); [|exact W].
    intros s' d' W'. symmetry. apply satisfies_sat. exact W'.
  Qed.
  Theorem means_unique H G : means_schemas rx get_schema H -> means_schemas rx get_schema G ->
    forall n s d, usable rx get_schema n s d -> (H s d <-> G s d).
  Proof.
    intros MH MG. induction n as [|n IH]; intros s d W; [destruct W|]. specialize (MH _ s d W). specialize (MG _ s d W).
    destruct s as [| | | | | | |m|]; try tauto. rewrite MH, MG. apply (meets_same (usable rx get_schema n)); [exact IH|exact W].
  Qed.
End Meaning.
