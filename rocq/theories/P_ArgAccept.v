(** C52, the other direction: when the command line parser comes back. *)
From Verif Require Import Base CNum Float Value Convert Numeric ParseBool GuessScalar Path ValueOps ParserInput Emit ArgParse P_ArgParse.
Open Scope N_scope.

(** ** What is claimed *)
(** All that an option is given fits it: every occurrence can be read and lies within what the option demands, the constant is there,
    none of them asks for help or for the configuration to be printed, and an option that appends has as many values as it is to have. *)
Record fit (flt : bytes -> option spec_float) (rx : bytes -> option (bytes -> bool)) (env : bytes -> option bytes) (stale : bytes -> bool)
           (d : adesc) (evs : list gev) (shares : list (list bytes)) (o : aopt) (vs : list value) : Prop := {
  f_taken : Forall2 (taken flt stale o) (env_text env o ++ on_line (o_id o) evs ++ share (o_id o) (d_args d) shares) vs;
  f_meets : o_action o = AStore \/ o_action o = AAppend -> Forall (meets rx o) vs;
  f_const : o_action o = AStoreConst -> vs <> [] -> mget (s2b "const") (o_opt o) <> None;
  f_quiet : In (o_action o) [AHelp; AAdvHelp; APrintConfig] -> vs = [];
  f_env : forall n, mget (s2b "env") (o_opt o) = Some n -> exists t, as_string n = Ok t;
  f_most : forall l m, o_action o = AAppend -> l = vs /\ vs <> [] \/ (exists v, vs = [] /\ mget (s2b "default") (o_opt o) = Some v /\ l = [v]) ->
    mget (s2b "maxArgs") (o_opt o) = Some m -> v_ne m (VInt 0) = Ok false \/ v_ne m (VInt 0) = Ok true /\ v_lt m (VUns (wrap32 (llen l))) = Ok false;
  f_least : forall l m, o_action o = AAppend -> l = vs /\ vs <> [] \/ (exists v, vs = [] /\ mget (s2b "default") (o_opt o) = Some v /\ l = [v]) ->
    mget (s2b "minArgs") (o_opt o) = Some m -> v_gt m (VUns (wrap32 (llen l))) = Ok false }.
(** The option has a default that is not null. *)
Definition has_default (o : aopt) : Prop := exists v, storing (o_action o) /\ mget (s2b "default") (o_opt o) = Some v /\ defaulted o v <> VNull.

(** ** Proofs *)
Lemma dealt_det f ids rest a : dealt f ids rest a -> forall b, dealt f ids rest b -> a = b.
Proof.
  induction 1 as [|id ids s rest ss B1 B2 D IH]; intros b DB; inversion DB as [|? ? s' rest' ss' C1 C2 D' Q1 Q2]; subst; [auto|].
  assert (LN : (List.length s + List.length rest = List.length s' + List.length rest')%nat) by (rewrite <- !app_length; now rewrite Q2).
  assert (L : List.length s' = List.length s).
  { unfold llen in *. destruct rest as [|x rest], rest' as [|y rest']; cbn [List.length] in LN.
    - lia.
    - destruct (C2 ltac:(discriminate)) as [NZ E']. specialize (B1 NZ). lia.
    - destruct (B2 ltac:(discriminate)) as [NZ E']. specialize (C1 NZ). lia.
    - destruct (C2 ltac:(discriminate)) as [_ E1]. destruct (B2 ltac:(discriminate)) as [_ E2]. lia. }
  assert (s' = s /\ rest' = rest) as [-> ->].
  { clear -Q2 L. revert s' L Q2. induction s as [|x s IH]; intros [|y s'] L Q; cbn in *; try discriminate; [auto|]. injection Q as -> Q. injection L as L. destruct (IH _ L Q). now subst. }
  f_equal. auto.
Qed.
Lemma aseq_fwd (m k : A) st s1 : m st = (Ok true, s1) -> aseq m k st = k s1.
Proof. unfold aseq. now intros ->. Qed.
Lemma existsb_false {T} (f : T -> bool) l : existsb f l = false <-> forall x, In x l -> f x = false.
Proof.
  induction l as [|y l IH]; cbn [existsb]; [split; [intros _ x []|auto]|]. rewrite orb_false_iff, IH. split.
  - intros [A B] x [<- | I]; auto.
  - intros H. split; [apply H; now left|intros x I; apply H; now right].
Qed.

Section Facts.
  Variable flt : bytes -> option spec_float.
  Variable rx : bytes -> option (bytes -> bool).
  Variable env : bytes -> option bytes.
  Variable load : aaction -> bytes -> res value.
  Variable stale : bytes -> bool.
  Variable d : adesc.
  Hypothesis PL : plain d.
  Hypothesis ND : NoDup (List.map o_id (d_opts d)).

  Lemma same_id a b : In a (d_opts d) -> In b (d_opts d) -> o_id a = o_id b -> a = b.
  Proof. intros A B Q. assert (X := find_opt_in d a ND A). assert (Y := find_opt_in d b ND B). congruence. Qed.

  (** The result of an option that appends is null or a list, that of a counter a number. *)
  Definition goodv (o : aopt) (r : value) : Prop :=
    match o_action o with AAppend => r = VNull \/ exists l, r = VList l | ACount => exists n, r = VUns n | _ => True end.
  Definition good (st : astate) : Prop := (forall o, In o (d_opts d) -> goodv o (a_res st (o_id o))) /\ (forall j, ~ In j (List.map o_id (d_opts d)) -> a_res st j = VNull).
  (** An occurrence that is accepted. *)
  Definition accept (o : aopt) (a : option bytes) : Prop :=
    exists v, parse_arg flt stale o a = Ok v /\ fits rx o v /\ (o_action o = AStoreConst -> mget (s2b "const") (o_opt o) <> None) /\ ~ In (o_action o) [AHelp; AAdvHelp; APrintConfig].
  Lemma handle_fwd fuel o a st : In o (d_opts d) -> accept o a -> goodv o (a_res st (o_id o)) ->
    exists st', handle_option flt rx load stale d fuel o a st = (Ok true, st') /\ a_print st' = a_print st /\ goodv o (a_res st' (o_id o)) /\ (forall j, j <> o_id o -> a_res st' j = a_res st j).
  Proof.
    intros I (v & P & FT & CO & QU) G.
    assert (H : exists c, handle rx load d fuel (o_id o) v = handle_plain rx c o v).
    { destruct fuel; cbn [handle]; rewrite (find_opt_in d o ND I); eauto. }
    destruct H as (c & H). unfold handle_option, alift. rewrite P, H. clear H.
    assert (SET : forall w, goodv o w -> exists st', aset (o_id o) w st = (Ok true, st') /\ a_print st' = a_print st /\ goodv o (a_res st' (o_id o)) /\ (forall j, j <> o_id o -> a_res st' j = a_res st j)).
    { intros w GW. eexists. split; [reflexivity|]. cbn [a_print a_res]. rewrite N.eqb_refl. split; [auto|]. split; [auto|].
      intros j NJ. apply N.eqb_neq in NJ. now rewrite NJ. }
    assert (NC := PL o I). unfold handle_plain. unfold fits, takes in FT. unfold goodv in *.
    destruct (o_action o) eqn:AC; try (exfalso; apply NC; cbn; clear; intuition congruence); try (exfalso; apply QU; cbn; clear; intuition congruence).
    - exists st. repeat split; auto.
    - unfold alift. rewrite (check_meets rx o v (FT (or_introl eq_refl))). apply SET. auto.
    - unfold akey. destruct (mget (s2b "const") (o_opt o)) as [w|]; [apply SET; auto|]. exfalso. now apply CO.
    - apply SET. auto.
    - apply SET. auto.
    - assert (L : match v with VList l => l | _ => [v] end = [v]). { destruct v; auto. exfalso. eapply parse_arg_scalar; eauto. }
      rewrite L. cbn [aeach]. unfold alift, aseq. rewrite (check_meets rx o v (FT (or_intror eq_refl))). unfold aappend, aget.
      destruct G as [-> | (l & ->)].
      + destruct (SET (VList [v])) as (st' & E & K); [eauto|]. rewrite E. exists st'. split; [reflexivity|exact K].
      + destruct (SET (VList (l ++ [v]))) as (st' & E & K); [eauto|]. rewrite E. exists st'. split; [reflexivity|exact K].
    - destruct (parse_arg_noarg flt stale o a v) as [_ ->]; [now rewrite AC|auto|]. unfold aget. destruct G as (n & ->). cbn [type_of is_num]. cbv beta iota delta [rbind].
      unfold alift. assert (exists m, v_arith OpAdd (VUns n) (VInt 1) = Ok (VUns m)) as (m & ->) by (eexists; reflexivity). apply SET. eauto.
  Qed.
  Lemma good_step o st st' : In o (d_opts d) -> good st -> goodv o (a_res st' (o_id o)) -> (forall j, j <> o_id o -> a_res st' j = a_res st j) -> good st'.
  Proof.
    intros I [G N] G' O. split; [|intros j NJ; rewrite O; [auto|intros ->; apply NJ, in_map, I]]. intros x IX. destruct (N.eq_dec (o_id x) (o_id o)) as [Q | Q]; [|rewrite O by auto; auto].
    rewrite (same_id _ _ IX I Q). exact G'.
  Qed.
  Lemma each_fwd fuel (l : list (aopt * option bytes)) : (forall oa, In oa l -> In (fst oa) (d_opts d) /\ accept (fst oa) (snd oa)) -> forall st, good st ->
    exists st', aeach (fun oa => handle_option flt rx load stale d fuel (fst oa) (snd oa)) l st = (Ok true, st') /\ a_print st' = a_print st /\ good st'.
  Proof.
    induction l as [|[o a] l IH]; intros H st G; [exists st; auto|].
    destruct (H _ (or_introl eq_refl)) as [I AC]. cbn [fst snd] in *. destruct (handle_fwd fuel o a st I AC (proj1 G o I)) as (s1 & E & P1 & G1 & O1).
    destruct (IH (fun x J => H x (or_intror J)) s1 (good_step o st s1 I G G1 O1)) as (s2 & E2 & P2 & G2).
    exists s2. split; [|split; [congruence|auto]]. cbn [aeach fst snd]. rewrite (aseq_fwd _ _ _ _ E). exact E2.
  Qed.
  Lemma start_fwd fuel l : NoDup (List.map o_id l) -> (forall o, In o l -> In o (d_opts d) /\ (forall a, In a (env_text env o) -> accept o a) /\ (forall n, mget (s2b "env") (o_opt o) = Some n -> exists t, as_string n = Ok t)) ->
    forall st, (forall o, In o l -> a_res st (o_id o) = VNull) ->
    exists st', aeach (a_start flt rx env load stale d fuel) l st = (Ok true, st') /\ a_print st' = a_print st /\ (forall o, In o l -> goodv o (a_res st' (o_id o))) /\
      (forall j, ~ In j (List.map o_id l) -> a_res st' j = a_res st j).
  Proof.
    induction l as [|o l IH]; intros NDL H st Z; [exists st; repeat split; auto; intros o []|]. inversion NDL as [|? ? NI NDL']; subst.
    destruct (H o (or_introl eq_refl)) as (I & AC & EV). cbn [aeach].
    assert (exists s0, match o_action o with ACount => aset (o_id o) (VUns 0) | _ => aok end st = (Ok true, s0) /\ a_print s0 = a_print st /\ goodv o (a_res s0 (o_id o)) /\ (forall j, j <> o_id o -> a_res s0 j = a_res st j)) as (s0 & E0 & P0 & G0 & O0).
    { assert (Z0 := Z o (or_introl eq_refl)). unfold goodv. destruct (o_action o); try (exists st; repeat split; auto; fail).
      eexists. split; [reflexivity|]. cbn [a_print a_res]. rewrite N.eqb_refl. split; [auto|]. split; [eauto|]. intros j NJ. apply N.eqb_neq in NJ. now rewrite NJ. }
    assert (exists s1, a_start flt rx env load stale d fuel o st = (Ok true, s1) /\ a_print s1 = a_print st /\ goodv o (a_res s1 (o_id o)) /\ (forall j, j <> o_id o -> a_res s1 j = a_res st j)) as (s1 & E1 & P1 & G1 & O1).
    { unfold a_start. rewrite (aseq_fwd _ _ _ _ E0). unfold from_env, akey. unfold env_text in AC. destruct (mget (s2b "env") (o_opt o)) as [n|].
      - destruct (EV n eq_refl) as (t & T). rewrite T in *. cbv beta iota delta [rbind]. unfold alift. destruct (env (c_str t)) as [s|].
        + destruct (handle_fwd fuel o (Some s) s0 I (AC _ (or_introl eq_refl)) G0) as (s1 & E & P1 & G1 & O1). exists s1. split; [exact E|]. split; [congruence|]. split; [auto|]. intros j NJ. rewrite O1, O0; auto.
        + exists s0. repeat split; auto.
      - exists s0. repeat split; auto. }
    destruct (IH NDL' (fun x J => H x (or_intror J)) s1) as (s2 & E2 & P2 & G2 & O2).
    { intros x J. rewrite O1; [apply Z; now right|]. intros Q. apply NI. rewrite <- Q. apply in_map, J. }
    exists s2. split; [rewrite (aseq_fwd _ _ _ _ E1); exact E2|]. split; [congruence|]. split.
    - intros x [<- | J]; [rewrite O2 by exact NI; exact G1|auto].
    - intros j NJ. cbn [List.map In] in NJ. rewrite O2, O1; [auto| |]; intros K; apply NJ; [left; auto|right; auto].
  Qed.
  Lemma events_fwd fuel evs : (forall e, In e evs -> exists o a, e = GOpt (o_id o) a /\ In o (d_opts d) /\ accept o a) -> forall st, good st ->
    exists st', aeach (a_event flt rx load stale d fuel) evs st = (Ok true, st') /\ a_print st' = a_print st /\ good st'.
  Proof.
    induction evs as [|e evs IH]; intros H st G; [exists st; auto|]. destruct (H e (or_introl eq_refl)) as (o & a & -> & I & AC).
    destruct (handle_fwd fuel o a st I AC (proj1 G o I)) as (s1 & E & P1 & G1 & O1).
    destruct (IH (fun x J => H x (or_intror J)) s1 (good_step o st s1 I G G1 O1)) as (s2 & E2 & P2 & G2).
    exists s2. split; [|split; [congruence|auto]]. cbn [aeach]. erewrite aseq_fwd; [exact E2|]. cbn [a_event]. rewrite (find_opt_in d o ND I). exact E.
  Qed.
  (** The counts can be read. *)
  Definition counted (id : N) : Prop := exists o, In o (d_opts d) /\ o_id o = id /\
    (forall m, mget (s2b "minArgs") (o_opt o) = Some m -> exists n, cast_unsigned 32 m = Ok n) /\ (forall m, mget (s2b "maxArgs") (o_opt o) = Some m -> exists n, cast_unsigned 32 m = Ok n).
  Lemma min_fwd ids st : Forall counted ids -> check_min d ids st = (Ok true, st).
  Proof.
    induction 1 as [|id ids (o & I & <- & CN & _) F IH]; [reflexivity|]. cbn [check_min]. rewrite (find_opt_in d o ND I). unfold get_unsigned, akey, alift.
    destruct (mget (s2b "minArgs") (o_opt o)) as [m|]; [|reflexivity]. destruct (CN m eq_refl) as (n & ->). destruct (0 <? n); [exact IH|reflexivity].
  Qed.
  Lemma args_fwd fuel ids rest ss : dealt (max_args d) ids rest ss -> Forall counted ids ->
    (forall id s x o, In (id, s) (List.combine ids ss) -> In x s -> In o (d_opts d) -> o_id o = id -> accept o (Some x)) -> forall st, good st ->
    exists st', take_args flt rx load stale d fuel ids rest st = (Ok true, st') /\ a_print st' = a_print st /\ good st'.
  Proof.
    induction 1 as [|id ids s rest ss B1 B2 D IH]; intros CN AC st G; [exists st; auto|]. inversion CN as [|? ? (o & I & <- & CMIN & CMAX) CN']; subst. clear CN.
    cbn [take_args]. rewrite (find_opt_in d o ND I).
    assert (exists mn, get_unsigned "minArgs" o = Ok mn) as (mn & MN) by (unfold get_unsigned, akey; destruct (mget (s2b "minArgs") (o_opt o)) as [m|]; [exact (CMIN m eq_refl)|eauto]).
    assert (MX : get_unsigned "maxArgs" o = Ok (max_args d (o_id o))).
    { unfold get_unsigned, akey, max_args. assert (F := find_opt_in d o ND I). unfold find_opt in F. rewrite F. destruct (mget (s2b "maxArgs") (o_opt o)) as [m|]; [|reflexivity]. destruct (CMAX m eq_refl) as (n & ->). reflexivity. }
    unfold alift. rewrite MN, MX. set (mx := max_args d (o_id o)) in *.
    match goal with |- context [if ?c then afail _ else _] => assert (C : c = false) end.
    { destruct ids; [|reflexivity]. inversion D; subst. rewrite app_nil_r. cbn [andb]. destruct (mx =? 0) eqn:Q; [reflexivity|]. cbn [negb andb]. apply N.ltb_ge. apply B1. now apply N.eqb_neq. }
    rewrite C. clear C. cbv zeta.
    set (n := if mx =? 0 then List.length (s ++ rest) else Nat.min (N.to_nat mx) (List.length (s ++ rest))).
    assert (LN : n = List.length s).
    { unfold n, llen in *. rewrite app_length. destruct (mx =? 0) eqn:Q.
      - apply N.eqb_eq in Q. destruct rest; [cbn; lia|]. destruct (B2 ltac:(discriminate)). contradiction.
      - apply N.eqb_neq in Q. specialize (B1 Q). destruct rest as [|x rest]; [cbn; lia|]. destruct (B2 ltac:(discriminate)). lia. }
    rewrite LN, firstn_app, Nat.sub_diag, firstn_all, skipn_app, Nat.sub_diag, skipn_all. cbn [firstn skipn app]. rewrite app_nil_r. clear n LN.
    destruct (each_fwd fuel (List.map (fun x => (o, Some x)) s)) with (st := st) as (s1 & E1 & P1 & G1); [|exact G|].
    { intros oa IA. apply in_map_iff in IA. destruct IA as (x & <- & J). cbn [fst snd]. split; [auto|]. apply (AC (o_id o) s x o); auto. cbn [List.combine]. now left. }
    rewrite each_map in E1. cbn [fst snd] in E1.
    destruct (IH CN') with (st := s1) as (s2 & E2 & P2 & G2); [|exact G1|].
    { intros id t x o' J. apply (AC id t x o'). cbn [List.combine]. now right. }
    exists s2. split; [|split; [congruence|auto]]. rewrite (aseq_fwd _ _ _ _ E1). exact E2.
  Qed.

  (** The end. *)
  Definition mutual (st : astate) : Prop := forall g, In g (d_groups d) -> g_exclusive g = true -> forall i j, In i (g_members g) -> In j (g_members g) -> a_res st i <> VNull -> a_res st j <> VNull -> i = j.
  Lemma default_fwd o st : exists s1, a_default d o st = (Ok true, s1).
  Proof.
    unfold a_default. destruct (akey "default" o) as [v|]; [|eexists; reflexivity]. destruct (is_null (a_res st (o_id o))) eqn:Q; [|eexists; reflexivity].
    destruct (rival d o st); [eexists; reflexivity|]. cbn [andb negb]. apply is_null_spec in Q. destruct (o_action o); try (eexists; reflexivity).
    unfold aappend, aget. rewrite Q. eexists. reflexivity.
  Qed.
  Lemma rival_none o st : rival d o st = false -> forall g i, In g (d_groups d) -> g_exclusive g = true -> In (o_id o) (g_members g) -> In i (g_members g) -> a_res st i = VNull.
  Proof.
    unfold rival. intros R g i IG EX IO II. apply (proj1 (existsb_false _ _)) with (x := g) in R; [|auto]. rewrite EX in R. cbn [andb] in R.
    apply andb_false_iff in R. destruct R as [R | R].
    - exfalso. apply (proj1 (existsb_false _ _)) with (x := o_id o) in R; [|auto]. now rewrite N.eqb_refl in R.
    - apply (proj1 (existsb_false _ _)) with (x := i) in R; [|auto]. apply is_null_spec. now apply negb_false_iff in R.
  Qed.
  Lemma default_spec o st s1 : a_default d o st = (Ok true, s1) -> a_print s1 = a_print st /\ (forall j, j <> o_id o -> a_res s1 j = a_res st j) /\
    (a_res s1 (o_id o) = a_res st (o_id o) \/ (rival d o st = false /\ a_res st (o_id o) = VNull /\ exists v, storing (o_action o) /\ mget (s2b "default") (o_opt o) = Some v /\ a_res s1 (o_id o) = defaulted o v)).
  Proof.
    intros E. destruct (default_one d o st s1 E) as [-> | (v & G & Z & SG & R & O & P)]; [auto|]. split; [auto|]. split; [auto|].
    destruct (rival d o st) eqn:RV; [|right; eauto 10]. left. unfold a_default, akey in E. rewrite G, RV, andb_false_r in E. now injection E as <-.
  Qed.
  Lemma mutual_default o st s1 : a_default d o st = (Ok true, s1) -> mutual st -> mutual s1.
  Proof.
    intros E M. destruct (default_spec _ _ _ E) as (_ & O & [R | (RV & Z & _)]).
    - assert (S : forall j, a_res s1 j = a_res st j) by (intros j; destruct (N.eq_dec j (o_id o)) as [-> | NJ]; auto).
      intros g IG EX i j. rewrite !S. apply M; auto.
    - intros g IG EX i j II IJ. destruct (N.eq_dec i (o_id o)) as [-> | NI], (N.eq_dec j (o_id o)) as [-> | NJ]; auto.
      + intros _ NN. exfalso. apply NN. rewrite O by auto. eapply rival_none; eauto.
      + intros NN _. exfalso. apply NN. rewrite O by auto. eapply rival_none; eauto.
      + rewrite !O by auto. apply (M g IG EX); auto.
  Qed.
  Lemma check_fwd o st : (a_res st (o_id o) = VNull -> o_required o = false) ->
    (o_action o = AAppend -> a_res st (o_id o) <> VNull -> exists l, a_res st (o_id o) = VList l /\
      (forall m, mget (s2b "maxArgs") (o_opt o) = Some m -> v_ne m (VInt 0) = Ok false \/ v_ne m (VInt 0) = Ok true /\ v_lt m (VUns (wrap32 (llen l))) = Ok false) /\
      (forall m, mget (s2b "minArgs") (o_opt o) = Some m -> v_gt m (VUns (wrap32 (llen l))) = Ok false)) -> a_check o st = (Ok true, st).
  Proof.
    intros RQ CN. unfold a_check, aget. destruct (is_null (a_res st (o_id o))) eqn:Q; [apply is_null_spec in Q; now rewrite (RQ Q)|]. apply is_null_false in Q.
    destruct (o_action o); try reflexivity. destruct (CN eq_refl Q) as (l & -> & MX & MN). unfold akey. cbn [vsize].
    match goal with |- alift ?r _ _ = _ => assert (X : r = Ok tt) end.
    { destruct (mget (s2b "maxArgs") (o_opt o)) as [m|]; [|reflexivity]. destruct (MX m eq_refl) as [-> | [-> K]]; [reflexivity|]. cbn [rbind]. rewrite K. reflexivity. }
    rewrite X. unfold alift at 1. clear X.
    match goal with |- alift ?r _ _ = _ => assert (X : r = Ok tt) end.
    { destruct (mget (s2b "minArgs") (o_opt o)) as [m|]; [|reflexivity]. rewrite (MN m eq_refl). reflexivity. }
    rewrite X. reflexivity.
  Qed.

  Lemma groups_fwd l st : (forall g, In g l -> In g (d_groups d) /\ (g_exclusive g = true -> g_required g = true -> exists i, In i (g_members g) /\ a_res st i <> VNull)) -> mutual st ->
    aeach g_finalize l st = (Ok true, st).
  Proof.
    intros H M. induction l as [|g l IH]; [reflexivity|]. cbn [aeach]. rewrite (aseq_fwd _ _ _ st); [apply IH; intros x J; apply H; now right|].
    destruct (H g (or_introl eq_refl)) as [IG RQ]. unfold g_finalize. destruct (g_exclusive g) eqn:EX; [|reflexivity]. cbv zeta.
    set (f := fun i => negb (is_null (a_res st i))). set (L := filter f (nodup N.eq_dec (g_members g))).
    assert (IL : forall i, In i L <-> In i (g_members g) /\ a_res st i <> VNull).
    { intros i. unfold L, f. rewrite filter_In, nodup_In, negb_true_iff. now rewrite is_null_false. }
    assert (NL : NoDup L) by (apply NoDup_filter, NoDup_nodup).
    assert (L1 : (List.length L <= 1)%nat).
    { destruct L as [|a [|b L']]; [cbn; lia|cbn; lia|]. exfalso. inversion NL as [|? ? NI _]; subst. apply NI. left.
      destruct (proj1 (IL a) (or_introl eq_refl)). destruct (proj1 (IL b) (or_intror (or_introl eq_refl))). apply (M g IG EX); auto. }
    replace (1 <? List.length L)%nat with false by (symmetry; apply Nat.ltb_ge; exact L1).
    destruct (g_required g) eqn:RE; [|reflexivity]. destruct (RQ eq_refl eq_refl) as (i & II & NN). assert (IN := proj2 (IL i) (conj II NN)).
    destruct L; [destruct IN|reflexivity].
  Qed.

  Variable given : aopt -> list value.
  Variable base : astate.
  Hypothesis RAW : forall o, In o (d_opts d) -> a_res base (o_id o) = summary o (given o).
  Hypothesis OUT : forall j, ~ In j (List.map o_id (d_opts d)) -> a_res base j = VNull.
  (** An option whose default stands if it is not given. *)
  Definition lone (o : aopt) : Prop := forall g o', In g (d_groups d) -> g_exclusive g = true -> In (o_id o) (g_members g) -> In o' (d_opts d) -> In (o_id o') (g_members g) -> o' <> o ->
    summary o' (given o') = VNull /\ mget (s2b "default") (o_opt o') = None.
  Definition drift (st : astate) : Prop := forall j, a_res st j = a_res base j \/ (a_res base j = VNull /\ exists o, In o (d_opts d) /\ o_id o = j /\ mget (s2b "default") (o_opt o) <> None).
  Lemma fin_fwd l : NoDup (List.map o_id l) -> (forall o, In o l -> In o (d_opts d) /\
      (o_required o = true -> summary o (given o) <> VNull \/ (has_default o /\ lone o)) /\
      (forall l m, o_action o = AAppend -> l = given o /\ given o <> [] \/ (exists v, given o = [] /\ mget (s2b "default") (o_opt o) = Some v /\ l = [v]) ->
        mget (s2b "maxArgs") (o_opt o) = Some m -> v_ne m (VInt 0) = Ok false \/ v_ne m (VInt 0) = Ok true /\ v_lt m (VUns (wrap32 (llen l))) = Ok false) /\
      (forall l m, o_action o = AAppend -> l = given o /\ given o <> [] \/ (exists v, given o = [] /\ mget (s2b "default") (o_opt o) = Some v /\ l = [v]) ->
        mget (s2b "minArgs") (o_opt o) = Some m -> v_gt m (VUns (wrap32 (llen l))) = Ok false)) ->
    forall st, mutual st -> drift st -> (forall o, In o l -> a_res st (o_id o) = a_res base (o_id o)) ->
    exists st', aeach (a_finalize d) l st = (Ok true, st') /\ a_print st' = a_print st /\ mutual st'.
  Proof.
    induction l as [|o l IH]; intros NDL H st M DR S; [exists st; repeat split; auto|]. inversion NDL as [|? ? NI NDL']; subst.
    destruct (H o (or_introl eq_refl)) as (I & RQ & MX & MN). destruct (default_fwd o st) as (s1 & E1). destruct (default_spec _ _ _ E1) as (P1 & O1 & D1).
    assert (SO := S o (or_introl eq_refl)). rewrite (RAW o I) in SO.
    assert (C : a_check o s1 = (Ok true, s1)).
    { apply check_fwd.
      - intros Z. destruct (o_required o) eqn:RE; [|auto]. exfalso. destruct (RQ eq_refl) as [NN | [(v & SG & G & NN) LO]].
        + destruct D1 as [D1 | (_ & Z0 & _)]; congruence.
        + assert (Z0 : a_res st (o_id o) = VNull).
          { destruct D1 as [D1 | (_ & Z0 & _)]; congruence. }
          assert (RV : rival d o st = false).
          { unfold rival. apply existsb_false. intros g IG. destruct (g_exclusive g) eqn:EX; [|reflexivity]. cbn [andb].
            destruct (existsb (N.eqb (o_id o)) (g_members g)) eqn:IO; [|reflexivity]. cbn [andb]. apply existsb_exists in IO. destruct IO as (k & IO & K). apply N.eqb_eq in K. subst k.
            apply existsb_false. intros j IJ. apply negb_false_iff, is_null_spec.
            destruct (N.eq_dec j (o_id o)) as [-> | NJ]; [auto|]. destruct (in_dec N.eq_dec j (List.map o_id (d_opts d))) as [IN | NIN].
            - apply in_map_iff in IN. destruct IN as (o' & <- & I'). destruct (LO g o' IG EX IO I' IJ ltac:(intros ->; auto)) as [Z1 ND1].
              destruct (DR (o_id o')) as [K | (_ & o2 & I2 & Q2 & DF)]; [now rewrite K, (RAW o' I')|]. exfalso. apply DF. now rewrite (same_id _ _ I2 I' Q2).
            - destruct (DR j) as [K | (_ & o2 & I2 & Q2 & DF)]; [now rewrite K, OUT|]. exfalso. apply NIN. rewrite <- Q2. apply in_map, I2. }
          destruct (default_due d o st s1 v E1 Z0 SG G) as [K | K]; congruence.
      - intros AC NN. unfold summary in SO. rewrite AC in SO. destruct D1 as [D1 | (_ & Z & v & SG & G & R)].
        + rewrite D1, SO. rewrite D1, SO in NN. destruct (given o) as [|w ws] eqn:GV; [contradiction|]. exists (w :: ws). split; [auto|].
          split; intros m; [apply (MX _ m AC)|apply (MN _ m AC)]; left; split; auto; discriminate.
        + rewrite R. unfold defaulted. rewrite AC. exists [v]. split; [auto|]. rewrite Z in SO. destruct (given o) eqn:GV; [|discriminate].
          split; intros m; [apply (MX _ m AC)|apply (MN _ m AC)]; right; eauto. }
    destruct (IH NDL' (fun x J => H x (or_intror J)) s1) as (s2 & E2 & P2 & M2).
    - eapply mutual_default; eauto.
    - intros j. destruct (N.eq_dec j (o_id o)) as [-> | NJ]; [|rewrite O1; auto]. destruct D1 as [D1 | (_ & Z & v & _ & G & _)]; [rewrite D1; auto|].
      right. split; [rewrite RAW; congruence|]. exists o. split; [auto|]. split; [auto|congruence].
    - intros x J. rewrite O1; [apply S; now right|]. intros Q. apply NI. rewrite <- Q. apply in_map, J.
    - exists s2. split; [|split; [congruence|auto]]. cbn [aeach]. rewrite (aseq_fwd _ _ _ s1); [exact E2|]. unfold a_finalize. rewrite (aseq_fwd _ _ _ _ E1). exact C.
  Qed.
End Facts.

(** If every option is given only what fits it, the arguments can be dealt out, what is required is given or has a default that stands, and
    of the options that exclude each other at most one is given, then Parse comes back, and every option that is given has the value that its occurrences make. *)
Theorem C52_accepts_partial flt rx env load stale d fuel evs rest shares given : plain d -> NoDup (List.map o_id (d_opts d)) ->
  (forall e, In e evs -> exists o a, In o (d_opts d) /\ e = GOpt (o_id o) a) ->
  (forall id, In id (d_args d) -> exists o, In o (d_opts d) /\ o_id o = id /\
    (forall m, mget (s2b "minArgs") (o_opt o) = Some m -> exists n, cast_unsigned 32 m = Ok n) /\ (forall m, mget (s2b "maxArgs") (o_opt o) = Some m -> exists n, cast_unsigned 32 m = Ok n)) ->
  dealt (max_args d) (d_args d) rest shares ->
  (forall o, In o (d_opts d) -> fit flt rx env stale d evs shares o (given o)) ->
  (forall o, In o (d_opts d) -> o_required o = true -> summary o (given o) <> VNull \/ has_default o /\
    forall g o', In g (d_groups d) -> g_exclusive g = true -> In (o_id o) (g_members g) -> In o' (d_opts d) -> In (o_id o') (g_members g) -> o' <> o ->
      summary o' (given o') = VNull /\ mget (s2b "default") (o_opt o') = None) ->
  (forall g, In g (d_groups d) -> g_exclusive g = true ->
    (forall a b, In a (d_opts d) -> In b (d_opts d) -> In (o_id a) (g_members g) -> In (o_id b) (g_members g) -> summary a (given a) <> VNull -> summary b (given b) <> VNull -> a = b) /\
    (g_required g = true -> exists o, In o (d_opts d) /\ In (o_id o) (g_members g) /\
      (summary o (given o) <> VNull \/ has_default o /\ forall g', In g' (d_groups d) -> g_exclusive g' = true -> In (o_id o) (g_members g') -> g' = g))) ->
  exists st, a_run flt rx env load stale d fuel evs rest a_init = Done st /\
    forall o, In o (d_opts d) -> summary o (given o) <> VNull -> a_res st (o_id o) = summary o (given o).
Proof.
  intros PL ND KN CN DL FT RQ GR.
  assert (ACC : forall o a, In o (d_opts d) -> In a (env_text env o ++ on_line (o_id o) evs ++ share (o_id o) (d_args d) shares) -> accept flt rx stale o a).
  { intros o a I IA. destruct (FT o I) as [TK ME CO QU _ _ _].
    assert (exists v, In v (given o) /\ taken flt stale o a v) as (v & IV & T).
    { clear -TK IA. induction TK as [|x v l vs T TK IH]; [destruct IA|]. destruct IA as [-> | IA]; [exists v; split; [now left|auto]|]. destruct (IH IA) as (w & ? & ?). exists w. split; [now right|auto]. }
    exists v. split; [now apply (taken_arg flt rx env load stale d PL o a v I)|]. split.
    - intros TK'. specialize (ME TK'). rewrite Forall_forall in ME. auto.
    - assert (NE : given o <> []) by (intros Q; rewrite Q in IV; destruct IV). split; [auto|]. intros K. apply NE. auto. }
  destruct (start_fwd flt rx env load stale d PL ND fuel (d_opts d) ND) with (st := a_init) as (s1 & R1 & P1 & G1 & O1).
  { intros o I. split; [auto|]. split; [intros a IA; apply ACC; [auto|]; apply in_or_app; now left|apply (f_env _ _ _ _ _ _ _ _ _ (FT o I))]. }
  { auto. }
  destruct (events_fwd flt rx load stale d PL ND fuel evs) with (st := s1) as (s2 & R2 & P2 & G2).
  { intros e IE. destruct (KN e IE) as (o & a & I & ->). exists o, a. split; [auto|]. split; [auto|]. apply ACC; [auto|]. apply in_or_app. right. apply in_or_app. left.
    unfold on_line. apply in_flat_map. eexists. split; [exact IE|]. cbn. rewrite N.eqb_refl. now left. }
  { split; [exact G1|exact O1]. }
  assert (CN' : Forall (counted d) (d_args d)) by (apply Forall_forall; exact CN).
  destruct (args_fwd flt rx env load stale d PL ND fuel _ _ _ DL CN') with (st := s2) as (s4 & R4 & P4 & G4).
  { intros id s x o IC IX I Q. apply ACC; [auto|]. apply in_or_app. right. apply in_or_app. right. unfold share. apply in_flat_map. eexists. split; [exact IC|]. cbn [fst snd]. subst id. rewrite N.eqb_refl. now apply in_map. }
  { exact G2. }
  assert (R3 := min_fwd d ND (d_args d) s2 CN').
  (* the values before the end *)
  destruct (start_ok flt rx env load stale d PL ND fuel (d_opts d) (fun o I => I) _ _ R1) as (i1 & S1 & Q1).
  destruct (events_ok flt rx load stale d PL ND fuel _ _ _ R2) as (i2 & S2 & Q2).
  destruct (args_ok flt rx load stale d PL ND fuel _ _ _ _ R4) as (shares' & i3 & DL' & S3 & Q3). rewrite <- (dealt_det _ _ _ _ DL _ DL') in *. clear DL' shares'.
  assert (RAW : forall o, In o (d_opts d) -> a_res s4 (o_id o) = summary o (given o)).
  { intros o IO. destruct (proj1 (started_of flt rx env stale o _ _ ND S1) IO) as (v1 & F1 & M1).
    destruct (answered_of flt rx stale d ND o _ _ IO S2) as (v2 & F2 & M2). destruct (handed_of flt rx stale d ND o _ _ _ IO S3) as (v3 & F3 & M3).
    assert (RES : a_res s4 (o_id o) = summary o (v1 ++ v2 ++ v3)).
    { rewrite (proj1 Q3), (proj1 Q2), (proj1 Q1), <- !fold_left_app, fold_filter, !filter_app, F1, F2, F3, <- fold_own. cbn [a_init a_res].
      f_equal. rewrite !map_app, !app_assoc. reflexivity. }
    assert (M : made flt rx stale o (env_text env o ++ on_line (o_id o) evs ++ share (o_id o) (d_args d) shares) (v1 ++ v2 ++ v3)) by (do 2 (apply made_app; [assumption|]); assumption).
    rewrite RES. f_equal. assert (TK := f_taken _ _ _ _ _ _ _ _ _ (FT o IO)).
    assert (DET : forall l x, made flt rx stale o l x -> forall y, Forall2 (taken flt stale o) l y -> x = y); [|exact (DET _ _ M _ TK)].
    clear -PL IO env load. unfold made. induction 1 as [|a v l vs [P _] M IH]; intros y TK; inversion TK as [|? w ? ws T TK']; subst; [auto|]. f_equal; [|auto].
    apply (taken_arg flt rx env load stale d PL o a w IO) in T. congruence. }
  assert (OUT := proj2 G4).
  destruct (fin_fwd d ND given s4 RAW OUT (d_opts d) ND) with (st := s4) as (s5 & R5 & P5 & M5).
  { intros o I. split; [auto|]. split; [intros RE; exact (RQ o I RE)|]. destruct (FT o I) as [_ _ _ _ _ MX MN]. split; [exact MX|exact MN]. }
  { intros g IG EX i j II IJ NI NJ.
    assert (OPT : forall k, a_res s4 k <> VNull -> exists o, In o (d_opts d) /\ o_id o = k).
    { intros k NN. destruct (in_dec N.eq_dec k (List.map o_id (d_opts d))) as [IN | NIN]; [apply in_map_iff in IN; destruct IN as (o & Q & I); eauto|exfalso; apply NN, OUT, NIN]. }
    destruct (OPT i NI) as (a & IA & <-). destruct (OPT j NJ) as (b & IB & <-). rewrite (RAW a IA) in NI. rewrite (RAW b IB) in NJ. f_equal.
    apply (proj1 (GR g IG EX)); auto. }
  { intros j. now left. }
  { auto. }
  destruct (fin_all d _ ND _ _ R5) as (_ & _ & FN).
  assert (R6 : aeach g_finalize (d_groups d) s5 = (Ok true, s5)).
  { apply (groups_fwd d); [|exact M5]. intros g IG. split; [auto|]. intros EX RE. destruct (proj2 (GR g IG EX) RE) as (o & I & IM & [NN | [(v & SG & G & NN) LO]]); destruct (FN o I) as (A1 & _ & A3 & _).
    - exists (o_id o). split; [auto|]. rewrite A1; rewrite RAW; auto.
    - destruct (is_null (a_res s4 (o_id o))) eqn:Z; [apply is_null_spec in Z|apply is_null_false in Z; exists (o_id o); split; [auto|]; now rewrite A1].
      destruct (A3 v Z SG G) as [K | (g' & i & IG' & EX' & IO' & II & _ & NI)]; [exists (o_id o); split; [auto|]; now rewrite K|].
      rewrite (LO g' IG' EX' IO') in II. eauto. }
  exists s5. split.
  - unfold a_run, a_all. rewrite (aseq_fwd _ _ _ _ R1), (aseq_fwd _ _ _ _ R2), (aseq_fwd _ _ _ _ R3), (aseq_fwd _ _ _ _ R4), (aseq_fwd _ _ _ _ R5), R6, P5, P4, P2, P1. reflexivity.
  - intros o I NN. destruct (FN o I) as (A1 & _). rewrite A1; rewrite RAW; auto.
Qed.
Print Assumptions C52_accepts_partial.

(** ** The Variant that is returned *)
(** On the way along a path of keys there are only maps, and nothing. *)
Fixpoint opens (v : value) (p : path) : Prop :=
  match p with [] => True | e :: p => (exists k, e = PKey k) /\ (v = VNull \/ exists m, v = VMap m) /\ opens (vnow v e) p end.
Lemma opens_set p : forall v x, opens v p -> exists v', vset v p x = Some v'.
Proof.
  induction p as [|e p IH]; intros v x O; [now exists x|]. destruct O as ((k & ->) & VM & O). cbn [vset]. fold (vnow v (PKey k)).
  destruct (IH _ x O) as (w & ->). destruct VM as [-> | (m & ->)]; cbn [vset_elem]; eauto.
Qed.
Lemma opens_null p : Forall (fun e => exists k, e = PKey k) p -> opens VNull p.
Proof. induction 1 as [|e p (k & ->) F IH]; cbn [opens]; [auto|]. split; [eauto|]. split; [auto|]. exact IH. Qed.
Lemma opens_kept p : forall q v x v', vsorted v -> opens v p -> opens v q -> vset v p x = Some v' -> diverge p q -> opens v' q.
Proof.
  induction p as [|e p IH]; intros q v x v' SV OP OQ E (r & a & b & p' & q' & QP & QQ & NE); [destruct r; discriminate QP|].
  cbn [vset] in E. fold (vnow v e) in E. destruct (vset (vnow v e) p x) as [w'|] eqn:W; [|discriminate]. destruct OP as ((k & ->) & VM & OP).
  destruct q as [|f q]; [exact I|]. destruct OQ as ((k2 & ->) & _ & OQ). cbn [opens].
  assert (C := vset_elem_child _ _ _ _ (PKey k2) SV E).
  split; [eauto|]. split; [destruct VM as [-> | (m & ->)]; cbn [vset_elem] in E; injection E as <-; eauto|].
  destruct r as [|c r]; cbn [app] in QP, QQ; injection QP as QP1 QP2; injection QQ as QQ1 QQ2.
  - subst a b. destruct (proj2 C ltac:(congruence)) as [K | (_ & _ & i & _ & K & _)]; [|discriminate K]. unfold vnow. rewrite K. exact OQ.
  - assert (k2 = k) by congruence. subst k2. unfold vnow. rewrite (proj1 C eq_refl).
    apply (IH q (vnow v (PKey k)) x w'); auto; [now apply vnow_sorted|]. exists r, a, b, p', q'. auto.
Qed.
Lemma form_fwd l st : forall v, vsorted v -> (forall o, In o l -> vsorted (a_res st (o_id o))) -> (forall o, In o l -> opens v (o_path o)) ->
  ForallOrdPairs (fun a b => diverge (o_path a) (o_path b)) l -> exists r, form_result l st v = Ok r.
Proof.
  induction l as [|o l IH]; intros v SV SR OP FP; cbn [form_result]; [eauto|]. inversion FP as [|? ? FO FP']; subst. rewrite Forall_forall in FO.
  destruct (has_result (o_action o) && negb (is_null (a_res st (o_id o))))%bool; [|apply IH; auto with datatypes].
  destruct (opens_set (o_path o) v (a_res st (o_id o)) (OP o (or_introl eq_refl))) as (v' & E). rewrite E. apply IH; auto with datatypes.
  - eapply vset_sorted; [exact SV| |exact E]. auto with datatypes.
  - intros x IX. eapply opens_kept; [exact SV|apply OP; now left|apply OP; now right|exact E|auto].
Qed.
(** The Variant can be formed if the paths are keys and none leads through another. *)
Theorem C52_forms d st : (forall o, In o (d_opts d) -> vsorted (a_res st (o_id o))) -> (forall o, In o (d_opts d) -> Forall (fun e => exists k, e = PKey k) (o_path o)) ->
  ForallOrdPairs (fun a b => diverge (o_path a) (o_path b)) (d_opts d) -> exists r, a_form d st = Ok r.
Proof.
  intros SR KP FP. unfold a_form. apply form_fwd; auto; [apply vsorted_map; split; constructor|].
  intros o I. assert (F := KP o I). destruct (o_path o) as [|e p]; [exact Logic.I|]. inversion F as [|? ? (k & ->) F']; subst. cbn [opens]. split; [eauto|]. split; [eauto|]. apply opens_null, F'.
Qed.
Print Assumptions C52_forms.

(** ** A case *)
(** The options of [case_d], and -q and -m, of which one has to be given; -m has a default. *)
Definition acc_d : adesc :=
  let d := or_new (do d <- add_option case_d (s2b "quiet") (chr "q") [] [] AStoreTrue; add_option d (s2b "mode") (chr "m") [] [] AStore) in
  let d := set_key (chr "m") "default" (VStr (s2b "x")) (set_fields (chr "m") AStore StringType false d) in
  ADesc (d_opts d) (d_args d) [AGroup (s2b "g") [chr "m"; chr "q"] true true] (d_count d) (d_resolve d).
Definition acc_evs : list gev := [GOpt (chr "v") None; GOpt (chr "n") (Some (s2b "3")); GOpt (chr "v") None; GOpt (chr "n") (Some (s2b "5"))].
Definition acc_given (o : aopt) : list value :=
  if o_id o =? chr "v" then [VNull; VNull] else if o_id o =? chr "n" then [VInt 3; VInt 5] else if o_id o =? chr "o" then [VStr (s2b "e")]
  else if o_id o =? 257 then [VStr (s2b "y")] else [].
Lemma Forall2_weaken {X Y} (P Q : X -> Y -> Prop) l m : (forall a b, P a b -> Q a b) -> Forall2 P l m -> Forall2 Q l m.
Proof. intros H. induction 1; constructor; auto. Qed.
Lemma map_ok {X Y} (f : X -> res Y) l : forall vs, List.map f l = List.map Ok vs -> Forall2 (fun a v => f a = Ok v) l vs.
Proof. induction l as [|a l IH]; intros [|v vs] E; try discriminate E; constructor; injection E as P E; auto. Qed.
Lemma acc_plain : plain acc_d.
Proof. intros o I. vm_compute in I. repeat (destruct I as [<- | I]; [cbn; intuition discriminate|]). destruct I. Qed.
(** The hypotheses of the theorem hold of it. *)
Example C52_accepts_case : plain acc_d /\ NoDup (List.map o_id (d_opts acc_d)) /\ List.length (d_opts acc_d) = 7%nat /\
  (forall e, In e acc_evs -> exists o a, In o (d_opts acc_d) /\ e = GOpt (o_id o) a) /\
  (forall id, In id (d_args acc_d) -> exists o, In o (d_opts acc_d) /\ o_id o = id /\
    (forall m, mget (s2b "minArgs") (o_opt o) = Some m -> exists n, cast_unsigned 32 m = Ok n) /\ (forall m, mget (s2b "maxArgs") (o_opt o) = Some m -> exists n, cast_unsigned 32 m = Ok n)) /\
  dealt (max_args acc_d) (d_args acc_d) [s2b "y"] [[s2b "y"]; []] /\
  (forall o, In o (d_opts acc_d) -> fit no_flt no_rx case_env no_stale acc_d acc_evs [[s2b "y"]; []] o (acc_given o)) /\
  (forall o, In o (d_opts acc_d) -> o_required o = true -> summary o (acc_given o) <> VNull) /\
  (forall g, In g (d_groups acc_d) -> g_exclusive g = true ->
    (forall a b, In a (d_opts acc_d) -> In b (d_opts acc_d) -> In (o_id a) (g_members g) -> In (o_id b) (g_members g) -> summary a (acc_given a) <> VNull -> summary b (acc_given b) <> VNull -> a = b) /\
    (exists o, In o (d_opts acc_d) /\ In (o_id o) (g_members g) /\
      (has_default o /\ forall g', In g' (d_groups acc_d) -> g_exclusive g' = true -> In (o_id o) (g_members g') -> g' = g))).
Proof.
  split; [exact acc_plain|]. split; [vm_compute; repeat constructor; cbn; intuition discriminate|]. split; [reflexivity|].
  split.
  { intros e I. assert (F : forall c, (exists o, find (fun o => o_id o =? c) (d_opts acc_d) = Some o) -> exists o, In o (d_opts acc_d) /\ o_id o = c).
    { intros c (o & F). apply find_some in F. destruct F as [IO Q]. apply N.eqb_eq in Q. exists o. split; assumption. }
    assert (V : exists o, In o (d_opts acc_d) /\ o_id o = chr "v") by (apply F; match goal with |- exists o, ?x = Some o => destruct x as [o'|] eqn:E; [exists o'; reflexivity|exfalso; vm_compute in E; discriminate E] end).
    assert (W : exists o, In o (d_opts acc_d) /\ o_id o = chr "n") by (apply F; match goal with |- exists o, ?x = Some o => destruct x as [o'|] eqn:E; [exists o'; reflexivity|exfalso; vm_compute in E; discriminate E] end).
    destruct V as (ov & IV & QV), W as (ow & IW & QW). unfold acc_evs in I. destruct I as [<- | [<- | [<- | [<- | []]]]]; [exists ov|exists ow|exists ov|exists ow]; eexists; (split; [eassumption|]); rewrite ?QV, ?QW; reflexivity. }
  split.
  { intros id I. vm_compute in I. destruct I as [<- | [<- | []]].
    all: match goal with |- exists o, _ /\ o_id o = ?c /\ _ => destruct (find (fun o => o_id o =? c) (d_opts acc_d)) as [o|] eqn:F; [|exfalso; vm_compute in F; discriminate F] end.
    all: assert (IO := find_some _ _ F); exists o; split; [tauto|]; split; [apply N.eqb_eq; tauto|]; clear IO; vm_compute in F; injection F as <-; split; intros m G; vm_compute in G; (discriminate G || (injection G as <-; eexists; reflexivity)). }
  split.
  { change (d_args acc_d) with [257; 258]. apply (dealt_cons _ 257 [258] [s2b "y"] []); [intros _; vm_compute; discriminate|intros K; now destruct K|].
    apply (dealt_cons _ 258 [] [] []); [intros _; vm_compute; discriminate|intros K; now destruct K|constructor]. }
  split.
  { intros o I. constructor.
    - assert (FA : List.map (parse_arg no_flt no_stale o) (env_text case_env o ++ on_line (o_id o) acc_evs ++ share (o_id o) (d_args acc_d) [[s2b "y"]; []]) = List.map Ok (acc_given o)).
      { vm_compute in I. repeat (destruct I as [<- | I]; [vm_compute; reflexivity|]). destruct I. }
      apply map_ok in FA. eapply Forall2_weaken; [|exact FA]. intros a v P. exact (proj1 (taken_arg no_flt no_rx case_env no_load no_stale acc_d acc_plain o a v I) P).
    - intros AC. assert (FA : List.map (check_requirements no_rx o) (acc_given o) = List.map Ok (List.map (fun _ => tt) (acc_given o))).
      { vm_compute in I. repeat (destruct I as [<- | I]; [clear AC; vm_compute; reflexivity|]). destruct I. }
      apply map_ok in FA. revert FA. generalize (acc_given o) at 1 3. generalize (List.map (fun _ : value => tt) (acc_given o)). intros us vs FA.
      induction FA as [|v u vs us P FA IH]; constructor; [exact (check_ok no_rx o v u P)|exact IH].
    - intros AC _. vm_compute in I. repeat (destruct I as [<- | I]; [discriminate AC|]). destruct I.
    - intros AC. vm_compute in I. repeat (destruct I as [<- | I]; [exfalso; cbn in AC; intuition discriminate|]). destruct I.
    - intros n G. vm_compute in I. repeat (destruct I as [<- | I]; [vm_compute in G; (discriminate G || (injection G as <-; eexists; reflexivity))|]). destruct I.
    - intros l m AC _ G. vm_compute in I. repeat (destruct I as [<- | I]; [try discriminate AC; vm_compute in G; discriminate G|]). destruct I.
    - intros l m AC _ G. vm_compute in I. repeat (destruct I as [<- | I]; [try discriminate AC; vm_compute in G; discriminate G|]). destruct I. }
  split.
  { intros o I RE. vm_compute in I. repeat (destruct I as [<- | I]; [try discriminate RE; vm_compute; discriminate|]). destruct I. }
  intros g [<- | []] _. split.
  - intros a b IA IB MA MB NA NB. exfalso. vm_compute in IA. repeat (destruct IA as [<- | IA]; [vm_compute in MA; vm_compute in NA; intuition discriminate|]). destruct IA.
  - destruct (find (fun o => o_id o =? chr "m") (d_opts acc_d)) as [o|] eqn:F; [|exfalso; vm_compute in F; discriminate F].
    assert (IO := find_some _ _ F). exists o. split; [tauto|]. destruct IO as [_ Q]. apply N.eqb_eq in Q. split; [rewrite Q; vm_compute; auto|]. split.
    + vm_compute in F. injection F as <-. exists (VStr (s2b "x")). split; [vm_compute; auto|]. split; [vm_compute; reflexivity|vm_compute; discriminate].
    + intros g' [<- | []] _ _. reflexivity.
Qed.
(** The paths are as demanded. *)
Example C52_forms_case : (forall o, In o (d_opts acc_d) -> Forall (fun e => exists k, e = PKey k) (o_path o)) /\ ForallOrdPairs (fun a b => diverge (o_path a) (o_path b)) (d_opts acc_d) /\
  exists st, a_run no_flt no_rx case_env no_load no_stale acc_d 0 acc_evs [s2b "y"] a_init = Done st /\ forall o, In o (d_opts acc_d) -> vsorted (a_res st (o_id o)).
Proof.
  split; [|split].
  - intros o I. vm_compute in I. repeat (destruct I as [<- | I]; [cbn [o_path]; repeat (constructor; [eexists; reflexivity|]); constructor|]). destruct I.
  - assert (D : forall p q, (exists r e f p' q', p = r ++ e :: p' /\ q = r ++ f :: q' /\ e <> f) -> diverge p q) by (intros; assumption).
    vm_compute. repeat first [apply FOP_nil|apply FOP_cons|apply Forall_nil|apply Forall_cons]; apply D.
    all: try (eexists [], _, _, _, _; split; [reflexivity|]; split; [reflexivity|discriminate]).
    all: eexists [_], _, _, _, _; split; [reflexivity|]; split; [reflexivity|discriminate].
  - destruct (a_run no_flt no_rx case_env no_load no_stale acc_d 0 acc_evs [s2b "y"] a_init) as [st|c|b] eqn:E; [|exfalso; vm_compute in E; discriminate E|exfalso; vm_compute in E; discriminate E].
    exists st. split; [reflexivity|]. assert (F : match a_run no_flt no_rx case_env no_load no_stale acc_d 0 acc_evs [s2b "y"] a_init with Done st => List.map (a_res st) (List.map o_id (d_opts acc_d)) | _ => [] end =
      [VStr (s2b "x"); VList [VInt 3; VInt 5]; VStr (s2b "e"); VNull; VUns 2; VStr (s2b "y"); VStr (s2b "here")]) by (vm_compute; reflexivity).
    rewrite E in F. clear E. intros o I. assert (IV : In (a_res st (o_id o)) (List.map (a_res st) (List.map o_id (d_opts acc_d)))) by (rewrite map_map; apply in_map_iff; exists o; split; [reflexivity|exact I]).
    rewrite F in IV. clear -IV. revert IV. generalize (a_res st (o_id o)). intros v IV. repeat (destruct IV as [<- | IV]; [vm_compute; repeat constructor|]). destruct IV.
Qed.
(** What it comes back with. *)
Example C52_accepts_seen : seen acc_d (a_run no_flt no_rx case_env no_load no_stale acc_d 0 acc_evs [s2b "y"] a_init) =
  (Some (Ok (VMap [(s2b "from", VStr (s2b "y")); (s2b "mode", VStr (s2b "x")); (s2b "out", VMap [(s2b "name", VStr (s2b "e")); (s2b "numbers", VList [VInt 3; VInt 5])]); (s2b "to", VStr (s2b "here")); (s2b "verbose", VUns 2)])), 0).
Proof. vm_compute. reflexivity. Qed.
