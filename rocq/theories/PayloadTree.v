(** Proofs about src/Payload.cc: the header is read back as the document without its payload. *)
From Verif Require Import Base CNum Float Value ValueOps Path Emit Numeric Blob ParserInput ParserInputProofs JSONEmitter JsonText JsonTextProofs
  Payload PayloadWrite JsonGrammar JsonMeaning JSONRead JsonTree P_JSONRound.
Open Scope N_scope.

(** Maps with equal entries. *)
Lemma same_map_ext m : forall m', msorted m -> msorted m' ->
  (forall k, match mget k m, mget k m' with Some a, Some b => same a b | None, None => True | _, _ => False end) ->
  same (VMap m) (VMap m').
Proof.
  intros m' S S' H. constructor. revert m' S S' H. induction m as [|[k v] m IH]; intros [|[k' v'] m'] S S' H.
  - constructor.
  - specialize (H k'). cbn [mget] in H. rewrite beqb_refl in H. destruct H.
  - specialize (H k). cbn [mget] in H. rewrite beqb_refl in H. destruct H.
  - destruct S as [S1 S2], S' as [S1' S2'].
    assert (E : k = k').
    { pose proof (H k) as Hk. pose proof (H k') as Hk'. cbn [mget] in Hk, Hk'. rewrite beqb_refl in Hk, Hk'.
      destruct (beqb k k') eqn:B; [apply beqb_eq in B; exact B|]. exfalso.
      destruct (mget k m') as [a|] eqn:G; [|destruct Hk]. destruct (beqb k' k) eqn:B2; [apply beqb_eq in B2; subst; rewrite beqb_refl in B; discriminate|].
      destruct (mget k' m) as [a'|] eqn:G'; [|destruct Hk'].
      apply mget_In in G, G'. assert (I1 : In k (mkeys m')) by (apply in_map_iff; exists (k, a); auto).
      assert (I2 : In k' (mkeys m)) by (apply in_map_iff; exists (k', a'); auto).
      apply S1' in I1. apply S1 in I2. rewrite bcmp_antisym, I1 in I2. discriminate. }
    subst k'. pose proof (H k) as Hk. cbn [mget] in Hk. rewrite beqb_refl in Hk. constructor; [auto|].
    apply IH; auto. intros j. destruct (beqb j k) eqn:B.
    + apply beqb_eq in B. subst j.
      assert (N1 : mget k m = None) by (apply mget_None_notin; intros K; apply S1 in K; rewrite bcmp_refl in K; discriminate).
      assert (N2 : mget k m' = None) by (apply mget_None_notin; intros K; apply S1' in K; rewrite bcmp_refl in K; discriminate).
      rewrite N1, N2. exact I.
    + specialize (H j). cbn [mget] in H. rewrite B in H. exact H.
Qed.

(** Members with different keys, in any order. *)
Lemma tmems_nodup (ts : list (bytes * jtree)) (es : list (bytes * value)) :
  Forall2 (fun kt kv => fst kt = fst kv /\ tval (snd kt) = Ok (snd kv)) ts es -> NoDup (mkeys es) ->
  forall acc, msorted acc -> (forall k, In k (mkeys es) -> mget k acc = None) ->
  exists r, tmems ts acc = Ok r /\ msorted r /\ forall k, mget k r = match mget k es with Some x => Some x | None => mget k acc end.
Proof.
  induction 1 as [|[k t] [k' v] ts es [E1 E2] _ IH]; intros ND acc S D; cbn [tmems]; [exists acc; auto|].
  cbn [fst snd] in *. subst k'. rewrite E2. cbn [rbind]. inversion ND as [|? ? ND1 ND2]; subst.
  destruct (IH ND2 (mset k v acc) (msorted_mset _ _ _ S)) as (r & -> & Sr & G).
  { intros j Hj. rewrite mget_mset by exact S. destruct (beqb j k) eqn:B; [apply beqb_eq in B; subst; contradiction|].
    apply D. right. exact Hj. }
  exists r. split; [reflexivity|]. split; [exact Sr|]. intros j. rewrite G, mget_mset by exact S. cbn [mget].
  destruct (beqb j k) eqn:B; [|reflexivity]. apply beqb_eq in B. subst j.
  replace (mget k es) with (@None value) by (symmetry; apply mget_None_notin; exact ND1). reflexivity.
Qed.

Fixpoint apart (a b : list bytes) : Prop :=
  match a, b with x :: a', y :: b' => if beqb x y then apart a' b' else True | _, _ => False end.
Definition aparto (a b : option (list bytes)) : Prop := match a, b with Some a, Some b => apart a b | _, _ => True end.

Definition blank (dp : option (list bytes)) (v : value) : option value :=
  match dp with Some dk => vset v (keys dk) VNull | None => Some v end.

Section Tree.
  Variables (p : jparams) (n : N) (b y : blob).
  Hypothesis prec : j_prec p = 17.
  Hypothesis n64 : n < 2^64.
  Hypothesis by_y : List.concat b = List.concat y.

  Definition with_length (lp : option (list bytes)) (v : value) : option value :=
    match lp with Some lk => vset v (keys lk) (VUns n) | None => Some v end.
  Definition with_data (dp : option (list bytes)) (v : value) : option value :=
    match dp with Some dk => vset v (keys dk) (VBlob y) | None => Some v end.
  (** What [e'], read back from the header of [x], has to be. *)
  Definition header (lp dp : option (list bytes)) (x e' : value) : Prop :=
    (exists u u', with_length lp x = Some u /\ with_data dp e' = Some u' /\ same u u') /\
    (forall lk, lp = Some lk -> vat e' (keys lk) = Some (VUns n)).
  Definition has_data (dp : option (list bytes)) (v : value) : Prop :=
    match dp with Some dk => vat v (keys dk) = Some (VBlob b) | None => True end.
  Definition key_fine (k : bytes) : Prop := llen k < 2^32 /\ no_nul k.
  Definition length_fine (d : N) (lp : option (list bytes)) : Prop :=
    match lp with Some lk => Forall key_fine lk /\ (d + llen lk) * j_indent p < 2^32 | None => True end.

  Lemma same_uns : same (VUns n) (VUns n).
  Proof. apply (SInt _ _ (Z.of_N n)); reflexivity. Qed.
  Lemma tval_uns : tval (vtree 17 (VUns n)) = Ok (VUns n).
  Proof. cbn [vtree tval]. destruct (2^64 <=? n) eqn:E2; [lia|reflexivity]. Qed.
  Lemma fits_uns d : jfits p d (VUns n).
  Proof. cbn [jfits]. pose proof (len_dec n 20 ltac:(change (10^20) with 100000000000000000000; lia)). lia. Qed.

  Lemma stub_fits d lr : length_fine d (Some lr) -> jfits p d (stub n lr).
  Proof.
    revert d. induction lr as [|k lr IH]; intros d [F D]; cbn [stub]; [apply fits_uns|].
    inversion F as [|? ? [K1 K2] F2]; subst. apply jfits_map. unfold llen in D. cbn [List.length] in D. split; [nia|].
    constructor; [|constructor]. cbn [fst snd]. rewrite c_str_id by exact K2. split; [exact K1|]. apply IH. split; [exact F2|].
    unfold llen. replace (d + 1 + N.of_nat (List.length lr)) with (d + N.of_nat (S (List.length lr))) by lia. exact D.
  Qed.
  Lemma stub_back lr : Forall key_fine lr -> tval (vtree 17 (stub n lr)) = Ok (stub n lr).
  Proof.
    induction 1 as [|k lr [K1 K2] _ IH]; cbn [stub]; [apply tval_uns|]. cbn [vtree List.map fst snd]. rewrite tval_obj.
    cbn [tmems]. rewrite c_str_id by exact K2. rewrite IH. reflexivity.
  Qed.
  Lemma stub_same lr : same (stub n lr) (stub n lr).
  Proof. induction lr as [|k lr IH]; cbn [stub]; [apply same_uns|]. constructor. constructor; auto. Qed.
  Lemma stub_at lr : vat (stub n lr) (keys lr) = Some (VUns n).
  Proof. induction lr as [|k lr IH]; [reflexivity|]. cbn [stub keys List.map vat vchild mget]. rewrite beqb_refl. exact IH. Qed.

  Lemma header_none x : vok x -> forall d, emittable p d x -> faithful x ->
    jfits p d x /\ exists e', tval (vtree 17 x) = Ok e' /\ header None None x e'.
  Proof.
    intros V d K F. split; [apply emittable_fits; auto; lia|]. destruct (tval_vtree 17 p x d V K) as (e' & E & S).
    exists e'. split; [exact E|]. split; [|discriminate]. exists x, e'. cbn. auto.
  Qed.

  (** The members of the header: what becomes of each key. *)
  Definition entry (lp dp : option (list bytes)) (m : list (bytes * value)) (k : bytes) (e e' : value) : Prop :=
    tval (vtree 17 e) = Ok e' /\
    match mget k m with
    | Some x => kstep dp k <> Some [] /\ header (kstep lp k) (kstep dp k) x e'
    | None => exists lr, lp = Some (k :: lr) /\ e' = stub n lr
    end.
  Lemma added_keys lp m : msorted m -> Forall (fun kv => mget (fst kv) m = None /\ exists lr, lp = Some (fst kv :: lr) /\ snd kv = stub n lr) (added n lp m).
  Proof.
    intros S. unfold added. destruct lp as [[|l lr]|]; [constructor| |constructor].
    destruct (mget l m) eqn:E; [constructor|]. constructor; [|constructor]. cbn [fst snd]. eauto.
  Qed.
  Lemma headkv_keys lp dp kv : mkeys (headkv n lp dp kv) = match kstep dp (fst kv) with Some [] => [] | _ => [fst kv] end.
  Proof. unfold headkv. destruct (kstep dp (fst kv)) as [[|? ?]|]; reflexivity. Qed.
  Lemma In_heads k lp dp m : In k (mkeys (flat_map (headkv n lp dp) m)) <-> In k (mkeys m) /\ kstep dp k <> Some [].
  Proof.
    induction m as [|[k0 x0] m IH]; [cbn; tauto|]. cbn [flat_map]. unfold mkeys in *. rewrite map_app, in_app_iff, IH.
    pose proof (headkv_keys lp dp (k0, x0)) as E. unfold mkeys in E. rewrite E. cbn [fst List.map In].
    destruct (kstep dp k0) as [[|? ?]|] eqn:Ek; cbn [In].
    - split; [tauto|]. intros [[->|H] N]; [congruence|]. auto.
    - split; [intros [[->|[]]|H]; [split; [auto|congruence]|tauto]|]. intros [[->|H] N]; auto.
    - split; [intros [[->|[]]|H]; [split; [auto|congruence]|tauto]|]. intros [[->|H] N]; auto.
  Qed.
  Lemma heads_nodup lp dp m : msorted m -> NoDup (mkeys (flat_map (headkv n lp dp) m)).
  Proof.
    induction m as [|[k0 x0] m IH]; intros S; [constructor|]. destruct S as [S1 S2]. cbn [flat_map]. unfold mkeys in *. rewrite map_app.
    pose proof (headkv_keys lp dp (k0, x0)) as E. unfold mkeys in E. rewrite E. cbn [fst].
    assert (N : ~ In k0 (List.map fst (flat_map (headkv n lp dp) m))).
    { intros H. apply In_heads in H as [H _]. apply S1 in H. rewrite bcmp_refl in H. discriminate. }
    destruct (kstep dp k0) as [[|? ?]|]; cbn [app]; [auto|constructor; auto..].
  Qed.
  Lemma ents_nodup lp dp m : msorted m -> NoDup (mkeys (flat_map (headkv n lp dp) m ++ added n lp m)).
  Proof.
    intros S. pose proof (heads_nodup lp dp m S) as H. unfold mkeys in *. rewrite map_app. unfold added.
    destruct lp as [[|l lr]|]; try (cbn [List.map]; rewrite app_nil_r; exact H).
    destruct (mget l m) eqn:E; cbn [List.map]; [rewrite app_nil_r; exact H|]. cbn [fst].
    assert (N : ~ In l (List.map fst (flat_map (headkv n (Some (l :: lr)) dp) m))).
    { intros K. apply In_heads in K as [K _]. apply mget_None_notin in E. contradiction. }
    revert H N. generalize (List.map fst (flat_map (headkv n (Some (l :: lr)) dp) m)). clear. intros ks H N.
    induction H as [|k ks N1 H IH]; cbn [app]; [constructor; [intros []|constructor]|]. constructor; [|apply IH; intros K; apply N; right; exact K].
    rewrite in_app_iff. intros [K|[K|[]]]; [contradiction|]. apply N. left. auto.
  Qed.

  Lemma forall_pick {A B} (R : A -> B -> Prop) l : Forall (fun a => exists b, R a b) l -> exists l', Forall2 R l l'.
  Proof. induction 1 as [|a l [b0 H] _ (l' & IH)]; [exists []; constructor|exists (b0 :: l'); constructor; auto]. Qed.

  Lemma header_map m lp dp d : msorted m -> inside lp -> inside dp -> aparto lp dp -> oko lp (VMap m) -> has_data dp (VMap m) -> length_fine d lp ->
    (d + 1) * j_indent p < 2^32 ->
    (forall k x, mget k m = Some x -> kstep dp k <> Some [] -> key_fine k /\
       jfits p (d + 1) (head n x (kstep lp k) (kstep dp k)) /\
       exists e', tval (vtree 17 (head n x (kstep lp k) (kstep dp k))) = Ok e' /\ header (kstep lp k) (kstep dp k) x e') ->
    jfits p d (head n (VMap m) lp dp) /\ exists h', tval (vtree 17 (head n (VMap m) lp dp)) = Ok h' /\ header lp dp (VMap m) h'.
  Proof.
    intros S Il Id Ap Ol Hd Lf Di Kids. rewrite head_map by assumption. set (ents := flat_map (headkv n lp dp) m ++ added n lp m).
    assert (G : Forall (fun ke => key_fine (fst ke) /\ jfits p (d + 1) (snd ke) /\ exists e', entry lp dp m (fst ke) (snd ke) e') ents).
    { apply Forall_app. split.
      - apply Forall_forall. intros [k e] H. apply in_flat_map in H as ([k0 x] & H0 & H). unfold headkv in H. cbn [fst snd] in *.
        assert (E : kstep dp k0 <> Some [] /\ k = k0 /\ e = head n x (kstep lp k0) (kstep dp k0))
          by (destruct (kstep dp k0) as [[|? ?]|]; [destruct H|..]; destruct H as [H|[]]; injection H as <- <-; repeat split; congruence).
        destruct E as (N & -> & ->). apply In_mget in H0; [|exact S]. destruct (Kids k0 x H0 N) as (Kf & J & e' & T & He).
        split; [exact Kf|]. split; [exact J|]. exists e'. unfold entry. rewrite H0. auto.
      - pose proof (added_keys lp m S) as A. revert A. apply Forall_impl. intros [k e] (N & lr & -> & ->). cbn [fst snd] in *.
        destruct Lf as [Lf1 Lf2]. inversion Lf1 as [|? ? Lk Lr]; subst. split; [exact Lk|].
        assert (length_fine (d + 1) (Some lr)).
        { split; [exact Lr|]. unfold llen in *. cbn [List.length] in Lf2. replace (d + 1 + N.of_nat (List.length lr)) with (d + N.of_nat (Datatypes.S (List.length lr))) by lia. exact Lf2. }
        split; [apply stub_fits; assumption|]. exists (stub n lr). unfold entry. rewrite N. split; [apply stub_back; exact Lr|]. eauto. }
    split.
    { apply jfits_map. split; [exact Di|]. revert G. apply Forall_impl. intros ke ([K1 K2] & J & _). rewrite c_str_id by exact K2. auto. }
    destruct (forall_pick (fun ke kv => key_fine (fst ke) /\ fst kv = fst ke /\ entry lp dp m (fst ke) (snd ke) (snd kv)) ents) as (es & Es).
    { revert G. apply Forall_impl. intros [k e] (K & _ & e' & H). exists (k, e'). auto. }
    assert (Ek : mkeys es = mkeys ents). { clear -Es. induction Es as [|? ? ? ? (_ & E & _) _ IH]; [reflexivity|]. unfold mkeys in *. cbn [List.map]. congruence. }
    assert (ND : NoDup (mkeys es)) by (rewrite Ek; apply ents_nodup; exact S).
    assert (Tm : exists r, tmems (List.map (fun kv => (c_str (fst kv), vtree 17 (snd kv))) ents) [] = Ok r /\ msorted r /\ forall k, mget k r = mget k es).
    { destruct (tmems_nodup (List.map (fun kv => (c_str (fst kv), vtree 17 (snd kv))) ents) es) with (acc := @nil (bytes * value)) as (r & Hr & Sr & Gr).
      - clear -Es. induction Es as [|? ? ? ? ([K1 K2] & E & T & _) _ IH]; cbn [List.map]; constructor; [|exact IH]. cbn [fst snd].
        rewrite c_str_id by exact K2. auto.
      - exact ND.
      - exact I.
      - reflexivity.
      - exists r. split; [exact Hr|]. split; [exact Sr|]. intros k. rewrite Gr. cbn [mget]. destruct (mget k es); reflexivity. }
    destruct Tm as (r & Hr & Sr & Gr). exists (VMap r). split; [cbn [vtree]; rewrite tval_obj, Hr; reflexivity|].
    assert (Get : forall k e', mget k r = Some e' -> exists e, entry lp dp m k e e').
    { intros k e' H. rewrite Gr in H. apply mget_In in H. clear -Es H. induction Es as [|[k0 x0] [k1 x1] ? ? (_ & E & T) _ IH]; [destruct H|].
      cbn [fst snd] in *. subst k1. destruct H as [H|H]; [injection H as -> ->; eauto|auto]. }
    assert (Has : forall k, mget k r <> None <-> In k (mkeys m) /\ kstep dp k <> Some [] \/ mget k m = None /\ exists lr, lp = Some (k :: lr)).
    { intros k. rewrite Gr. assert (E : mget k es <> None <-> In k (mkeys ents)).
      { rewrite <- Ek. rewrite mget_None_notin. split; [|tauto]. intros H. destruct (in_dec (list_eq_dec ascii_dec) k (mkeys es)); [assumption|contradiction]. }
      rewrite E. subst ents. unfold mkeys at 1. rewrite map_app, in_app_iff. fold (mkeys (flat_map (headkv n lp dp) m)). rewrite In_heads.
      assert (A : In k (List.map fst (added n lp m)) <-> mget k m = None /\ exists lr, lp = Some (k :: lr)).
      { unfold added. destruct lp as [[|l lr]|]; [cbn; split; [tauto|intros (_ & ? & ?); discriminate]| |cbn; split; [tauto|intros (_ & ? & ?); discriminate]].
        destruct (mget l m) eqn:El; cbn; split; try tauto.
        - intros (Nk & lr' & [= <- <-]). congruence.
        - intros [<-|[]]. eauto.
        - intros (_ & lr' & [= <- <-]). auto. }
      rewrite A. reflexivity. }
    (* the children *)
    assert (Kept : forall k x, mget k m = Some x -> kstep dp k <> Some [] -> exists e', mget k r = Some e' /\ header (kstep lp k) (kstep dp k) x e').
    { intros k x H N. destruct (mget k r) as [e'|] eqn:E.
      - exists e'. split; [reflexivity|]. destruct (Get k e' E) as (e & _ & T). rewrite H in T. apply T.
      - exfalso. apply (proj2 (Has k)); [|exact E]. left. split; [|exact N]. apply in_map_iff. exists (k, x). split; [reflexivity|]. apply mget_In, H. }
    assert (New : forall k lr, lp = Some (k :: lr) -> mget k m = None -> mget k r = Some (stub n lr)).
    { intros k lr El H. destruct (mget k r) as [e'|] eqn:E.
      - destruct (Get k e' E) as (e & _ & T). rewrite H in T. destruct T as (lr' & El' & ->). congruence.
      - exfalso. apply (proj2 (Has k)); [|exact E]. right. eauto. }
    assert (Gone : forall k, mget k m = None -> (forall lr, lp <> Some (k :: lr)) -> mget k r = None).
    { intros k H N. destruct (mget k r) as [e'|] eqn:E; [|reflexivity]. exfalso. destruct (proj1 (Has k)) as [[Hk _]|[_ [lr El]]]; [congruence| |exact (N lr El)].
      apply mget_None_notin in H. contradiction. }
    assert (Cut : forall k, kstep dp k = Some [] -> mget k m <> None -> mget k r = None).
    { intros k H N. destruct (mget k r) as [e'|] eqn:E; [|reflexivity]. exfalso. destruct (proj1 (Has k)) as [[_ Hk]|[Hk _]]; congruence. }
    (* the document with the length *)
    assert (U : exists mu, with_length lp (VMap m) = Some (VMap mu) /\ msorted mu /\
                  (forall k, match lp with
                             | Some (l :: lr) => if beqb k l then exists uw, mget k mu = Some uw /\
                                  match mget l m with Some w => with_length (Some lr) w = Some uw | None => uw = stub n lr end
                                else mget k mu = mget k m
                             | _ => mget k mu = mget k m
                             end) /\
                  (forall lk, lp = Some lk -> vat (VMap r) (keys lk) = Some (VUns n))).
    { destruct lp as [[|l lr]|]; [destruct Il| |exists m; repeat split; auto; discriminate].
      assert (Na : kstep dp l <> Some []).
      { destruct dp as [[|k dr]|]; [destruct Id| |discriminate]. cbn [aparto apart] in Ap. cbn [kstep].
        destruct (beqb l k) eqn:B; [|rewrite ?B; discriminate]. apply beqb_eq in B. subst k.
        rewrite ?beqb_refl. destruct dr; [|discriminate]. destruct lr; destruct Ap. }
      destruct (mget l m) as [w|] eqn:El.
      - destruct (Kept l w El Na) as (e' & Ge & [(u & u' & Hu & _ & _) Hv]). cbn [kstep] in Hu, Hv. rewrite beqb_refl in Hu, Hv.
        exists (mset l u m). cbn [with_length keys List.map vset vchild]. rewrite El. fold (keys lr). cbn [with_length] in Hu. rewrite Hu. cbn [vset_elem].
        split; [reflexivity|]. split; [apply msorted_mset, S|]. split.
        + intros k. rewrite mget_mset by exact S. destruct (beqb k l) eqn:B; [|reflexivity]. eauto.
        + intros lk [= <-]. cbn [keys List.map vat vchild]. rewrite Ge. apply Hv. reflexivity.
      - exists (mset l (stub n lr) m). cbn [with_length keys List.map vset vchild]. rewrite El. fold (keys lr). rewrite vset_stub. cbn [vset_elem].
        split; [reflexivity|]. split; [apply msorted_mset, S|]. split.
        + intros k. rewrite mget_mset by exact S. destruct (beqb k l) eqn:B; [|reflexivity]. eauto.
        + intros lk [= <-]. cbn [keys List.map vat vchild]. rewrite (New l lr eq_refl El). apply stub_at. }
    destruct U as (mu & U1 & U2 & U3 & U4). split; [|exact U4]. exists (VMap mu).
    (* a key away from the data *)
    assert (Away : forall k, kstep dp k = None -> match mget k mu, mget k r with Some a, Some b => same a b | None, None => True | _, _ => False end).
    { intros k Hk. specialize (U3 k). destruct (mget k m) as [x|] eqn:Ex.
      - destruct (Kept k x Ex ltac:(congruence)) as (e' & -> & [(u & u' & Hu & Hu' & Su) _]). rewrite Hk in Hu'. injection Hu' as ->.
        destruct lp as [[|l lr]|]; [destruct Il| |].
        + cbn [kstep] in Hu. destruct (beqb k l) eqn:B.
          * apply beqb_eq in B. subst l. destruct U3 as (uw & -> & Uw). rewrite Ex in Uw. rewrite ?beqb_refl in Hu. congruence.
          * rewrite ?B in Hu. rewrite U3. cbn [with_length] in Hu. congruence.
        + rewrite U3. cbn in Hu. congruence.
      - destruct lp as [[|l lr]|]; [destruct Il| |].
        + destruct (beqb k l) eqn:B.
          * apply beqb_eq in B. subst l. destruct U3 as (uw & -> & Uw). rewrite Ex in Uw. subst uw. rewrite (New k lr eq_refl Ex). apply stub_same.
          * rewrite U3, (Gone k Ex); [exact I|]. intros lr' [= -> _]. rewrite beqb_refl in B. discriminate.
        + rewrite U3, (Gone k Ex); [exact I|]. discriminate. }
    destruct dp as [[|k dr]|]; [destruct Id| |].
    2: { exists (VMap r). split; [exact U1|]. split; [reflexivity|]. apply same_map_ext; auto. intros j. apply Away. reflexivity. }
    cbn [has_data keys List.map vat vchild] in Hd. destruct (mget k m) as [x|] eqn:Ex; [|discriminate]. fold (keys dr) in Hd.
    assert (D : exists ue, with_data (Some (k :: dr)) (VMap r) = Some (VMap (mset k ue r)) /\ exists a, mget k mu = Some a /\ same a ue).
    { cbn [with_data keys List.map vset vchild]. fold (keys dr). destruct dr as [|k2 dr].
      - rewrite (Cut k) by (cbn [kstep]; rewrite ?beqb_refl; congruence). cbn [keys List.map vset vset_elem].
        exists (VBlob y). split; [reflexivity|]. exists (VBlob b). cbn in Hd. injection Hd as ->. split; [|constructor; exact by_y].
        specialize (U3 k). destruct lp as [[|l lr]|]; [destruct Il| |congruence]. destruct (beqb k l) eqn:B; [|congruence].
        exfalso. apply beqb_eq in B. subst l. cbn [aparto apart] in Ap. rewrite beqb_refl in Ap. destruct lr; destruct Ap.
      - destruct (Kept k x Ex) as (e' & -> & [(u & u' & Hu & Hu' & Su) _]); [cbn [kstep]; rewrite ?beqb_refl; discriminate|].
        cbn [kstep] in Hu'. rewrite beqb_refl in Hu'. cbn [with_data] in Hu'. rewrite Hu'. cbn [vset_elem].
        exists u'. split; [reflexivity|]. exists u. split; [|exact Su].
        specialize (U3 k). destruct lp as [[|l lr]|]; [destruct Il| |cbn in Hu; congruence]. cbn [kstep] in Hu. destruct (beqb k l) eqn:B.
        + apply beqb_eq in B. subst l. destruct U3 as (uw & -> & Uw). rewrite Ex in Uw. rewrite ?beqb_refl in Hu. congruence.
        + rewrite ?B in Hu. rewrite U3. cbn in Hu. congruence. }
    destruct D as (ue & D1 & a & D2 & D3). exists (VMap (mset k ue r)). split; [exact U1|]. split; [exact D1|].
    apply same_map_ext; [exact U2|apply msorted_mset, Sr|]. intros j. rewrite mget_mset by exact Sr. destruct (beqb j k) eqn:B.
    - apply beqb_eq in B. subst j. rewrite D2. exact D3.
    - apply Away. cbn [kstep]. rewrite ?B. reflexivity.
  Qed.

  Lemma map_kids m : 
    Forall (fun kv => vok (snd kv) -> forall lp dp d h0, oko lp (snd kv) -> has_data dp (snd kv) -> inside dp -> aparto lp dp -> length_fine d lp ->
      blank dp (snd kv) = Some h0 -> emittable p d h0 -> faithful h0 ->
      jfits p d (head n (snd kv) lp dp) /\ exists h', tval (vtree 17 (head n (snd kv) lp dp)) = Ok h' /\ header lp dp (snd kv) h') m ->
    msorted m -> Forall (fun kv => vok (snd kv)) m -> forall lp dp d h0, inside lp -> oko lp (VMap m) -> has_data dp (VMap m) -> inside dp -> aparto lp dp ->
    length_fine d lp -> blank dp (VMap m) = Some h0 -> emittable p d h0 -> faithful h0 ->
    jfits p d (head n (VMap m) lp dp) /\ exists h', tval (vtree 17 (head n (VMap m) lp dp)) = Ok h' /\ header lp dp (VMap m) h'.
  Proof.
    intros IH S V lp dp d h0 Il Ol Hd Id Ap Lf Bl K F.
    assert (B : exists m0, h0 = VMap m0 /\ forall k x, mget k m = Some x -> kstep dp k <> Some [] ->
                  exists x0, In (k, x0) m0 /\ blank (kstep dp k) x = Some x0).
    { destruct dp as [[|j dr]|]; [destruct Id| |].
      - cbn [blank keys List.map vset vchild] in Bl. fold (keys dr) in Bl.
        destruct (vset (match mget j m with Some w => w | None => VNull end) (keys dr) VNull) as [w0|] eqn:E; [|discriminate].
        cbn [vset_elem] in Bl. injection Bl as <-. eexists. split; [reflexivity|]. intros k x G N. cbn [kstep] in *. destruct (beqb k j) eqn:B.
        + apply beqb_eq in B. subst k. rewrite G in E. exists w0. split; [|exact E]. apply mget_In. rewrite mget_mset, beqb_refl by exact S. reflexivity.
        + exists x. split; [|reflexivity]. apply mget_In. rewrite mget_mset, B by exact S. exact G.
      - injection Bl as <-. exists m. split; [reflexivity|]. intros k x G _. exists x. split; [apply mget_In, G|reflexivity]. }
    destruct B as (m0 & -> & B). apply emittable_map in K as [K1 K2]. apply faithful_map in F. rewrite Forall_forall in IH, V, K2, F.
    apply header_map; try assumption. intros k x G N. destruct (B k x G N) as (x0 & I0 & Bx). destruct (K2 _ I0) as [Kl Ke]. destruct (F _ I0) as [Fn Ff].
    cbn [fst snd] in *. split; [split; assumption|]. pose proof (mget_In _ _ _ G) as Ix.
    apply (IH _ Ix (V _ Ix) (kstep lp k) (kstep dp k) (d + 1) x0); try assumption.
    - eapply oko_step; eauto.
    - destruct dp as [[|j dr]|]; [exact I| |exact I]. cbn [kstep] in *. destruct (beqb k j) eqn:Bk; [|exact I]. apply beqb_eq in Bk. subst j.
      cbn [has_data keys List.map vat vchild] in Hd. rewrite G in Hd. exact Hd.
    - destruct (kstep dp k) as [[|? ?]|]; [congruence|exact I..].
    - destruct lp as [[|l lr]|], dp as [[|j dr]|]; try exact I; try (cbn [kstep]; destruct (beqb k l); exact I).
      cbn [kstep aparto apart] in *. destruct (beqb k l) eqn:B1, (beqb k j) eqn:B2; try exact I.
      apply beqb_eq in B1, B2. subst l j. rewrite beqb_refl in Ap. exact Ap.
    - destruct lp as [[|l lr]|]; try exact I. cbn [kstep]. destruct (beqb k l); [|exact I]. destruct Lf as [L1 L2]. inversion L1; subst. split; [assumption|].
      unfold llen in *. cbn [List.length] in L2. replace (d + 1 + N.of_nat (List.length lr)) with (d + N.of_nat (Datatypes.S (List.length lr))) by lia. exact L2.
  Qed.

  Lemma header_ok v : vok v -> forall lp dp d h0, oko lp v -> has_data dp v -> inside dp -> aparto lp dp -> length_fine d lp ->
    blank dp v = Some h0 -> emittable p d h0 -> faithful h0 ->
    jfits p d (head n v lp dp) /\ exists h', tval (vtree 17 (head n v lp dp)) = Ok h' /\ header lp dp v h'.
  Proof.
    induction v as [|bb|z|u|x|s|l IH|m IH|bb] using value_ind'; intros V lp dp d h0 Ol Hd Id Ap Lf Bl K F.
    8: { destruct lp as [[|l lr]|] eqn:EL.
      - destruct dp as [[|? ?]|]; [destruct Ap..|]. cbn [head]. split; [apply fits_uns|]. exists (VUns n). split; [apply tval_uns|].
        split; [|intros ? [= <-]; reflexivity]. exists (VUns n), (VUns n). repeat split; auto. apply same_uns.
      - rewrite <- EL in *. assert (Il : inside lp) by (rewrite EL; exact I). clear EL l lr. apply vok_map in V as [S V].
        apply (map_kids m IH S V lp dp d h0); assumption.
      - rewrite <- EL in *. assert (Il : inside lp) by (rewrite EL; exact I). clear EL. apply vok_map in V as [S V].
        apply (map_kids m IH S V lp dp d h0); assumption. }
    all: destruct dp as [[|k dr]|]; [destruct Id|discriminate|];
      destruct lp as [[|l0 lr]|]; [|destruct Ol as (? & ? & _); discriminate|];
      [cbn [head]; split; [apply fits_uns|]; exists (VUns n); split; [apply tval_uns|];
        split; [|intros ? [= <-]; reflexivity]; exists (VUns n), (VUns n); repeat split; auto; apply same_uns
      |injection Bl as <-; rewrite head_none; apply header_none; assumption].
  Qed.
End Tree.
