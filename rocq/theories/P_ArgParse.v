(** C52: what the command line parser makes of the environment, the options and the arguments. *)
From Coq Require Import Sorted.
From Verif Require Import Base CNum Float Value Convert Numeric ParseBool GuessScalar Path ValueOps ParserInput Emit ArgParse.
Open Scope N_scope.

(** ** What is claimed *)
(** No option loads configuration files. *)
Definition plain (d : adesc) : Prop := forall o, In o (d_opts d) -> ~ In (o_action o) [AConfig; AConfigJson; AConfigYaml; AConfigPlist].
(** A value lies within what the option demands. *)
Record meets (rx : bytes -> option (bytes -> bool)) (o : aopt) (v : value) : Prop := {
  m_min : forall b, (exists z, v = VInt z) \/ (exists n, v = VUns n) \/ (exists x, v = VFlt x) -> mget (s2b "minimum") (o_opt o) = Some b -> v_lt v b = Ok false;
  m_max : forall b, (exists z, v = VInt z) \/ (exists n, v = VUns n) \/ (exists x, v = VFlt x) -> mget (s2b "maximum") (o_opt o) = Some b -> v_gt v b = Ok false;
  m_short : forall s b, v = VStr s -> mget (s2b "minLength") (o_opt o) = Some b -> v_lt (VUns (wrap32 (llen s))) b = Ok false;
  m_long : forall s b, v = VStr s -> mget (s2b "maxLength") (o_opt o) = Some b -> v_gt (VUns (wrap32 (llen s))) b = Ok false;
  m_pattern : forall s p, v = VStr s -> mget (s2b "pattern") (o_opt o) = Some p -> exists t f, as_string p = Ok t /\ rx (c_str t) = Some f /\ f (c_str s) = true;
  m_enum : forall e, mget (s2b "enum") (o_opt o) = Some e -> exists l1 x l2, e = VList (l1 ++ x :: l2) /\ v_eq v x = Ok true /\ Forall (fun y => v_eq v y = Ok false) l1 }.
(** The value of a text for an option of this type: C33 says what [parse_bool] is, C34 what [guess_scalar] is.  Integers have blanks, a sign and digits. *)
Definition digits_of (s : bytes) (neg : bool) (m : N) : Prop :=
  exists ds, take_sign (skip_space s) = (neg, ds) /\ ds <> [] /\ forallb is_digit ds = true /\ m = dec_value ds.
Definition reads (flt : bytes -> option spec_float) (stale : bytes -> bool) (t : vtype) (s : bytes) (v : value) : Prop :=
  match t with
  | BoolType => v = VBool (parse_bool s)
  | IntegerType => exists neg m, digits_of s neg m /\ let z := (if neg then - Z.of_N m else Z.of_N m)%Z in
      (z < - 2^63 /\ v = VInt (- 2^63) \/ - 2^63 <= z < 2^63 - 1 /\ v = VInt z \/ z = 2^63 - 1 /\ v = (if stale s then VUns (Z.to_N z) else VInt z) \/
       2^63 - 1 < z /\ v = VUns (N.min m (2^64 - 1)))%Z
  | UnsignedType => exists neg m, digits_of s neg m /\ (2^64 <= m /\ v = VUns (2^64 - 1) \/ m < 2^64 /\ v = VUns (if neg then (2^64 - m) mod 2^64 else m))
  | FloatType => exists x, flt s = Some x /\ v = VFlt (ld_of_d x)
  | StringType => v = VStr s
  | _ => match guess_scalar (stale s) s with
         | GNull => v = VNull | GBool b => v = VBool b | GInt z => v = VInt z | GUns n => v = VUns n | GFlt x => v = VFlt (ld_of_d x) | GText t => v = VStr t
         end
  end.
(** The value of one occurrence: an option that stores or appends has a text, others have none. *)
Definition taken (flt : bytes -> option spec_float) (stale : bytes -> bool) (o : aopt) (a : option bytes) (v : value) : Prop :=
  match o_action o with AStore | AAppend => exists s, a = Some s /\ reads flt stale (o_type o) s v | _ => a = None /\ v = VNull end.
(** The value of an option that was given with these values, null when it counts as not given. *)
Definition summary (o : aopt) (vs : list value) : value :=
  match o_action o with
  | AStore => last vs VNull
  | AAppend => match vs with [] => VNull | _ => VList vs end
  | ACount => VUns (wrap64 (llen vs))
  | AStoreConst => match vs with [] => VNull | _ => match mget (s2b "const") (o_opt o) with Some c => c | None => VNull end end
  | AStoreTrue => match vs with [] => VNull | _ => VBool true end
  | AStoreFalse => match vs with [] => VNull | _ => VBool false end
  | _ => VNull
  end.
(** The value of an option for which its default stands. *)
Definition defaulted (o : aopt) (v : value) : value := match o_action o with AAppend => VList [v] | _ => v end.
Definition storing (a : aaction) : Prop := In a [AStore; AStoreConst; AStoreTrue; AStoreFalse; AAppend].
(** The arguments dealt out in turn: each argument takes as many as it may, and none is left over. *)
Inductive dealt (maxof : N -> N) : list N -> list bytes -> list (list bytes) -> Prop :=
  | dealt_nil : dealt maxof [] [] []
  | dealt_cons id ids s rest ss : (maxof id <> 0 -> llen s <= maxof id) -> (rest <> [] -> maxof id <> 0 /\ llen s = maxof id) ->
      dealt maxof ids rest ss -> dealt maxof (id :: ids) (s ++ rest) (s :: ss).
(** The occurrences of the option with this id in the answers of getopt_long, and its share of the arguments. *)
Definition on_line (id : N) (evs : list gev) : list (option bytes) :=
  flat_map (fun e => match e with GOpt i a => if i =? id then [a] else [] | GBad => [] end) evs.
Definition share (id : N) (ids : list N) (ss : list (list bytes)) : list (option bytes) :=
  flat_map (fun p => if fst p =? id then List.map Some (snd p) else []) (List.combine ids ss).
(** The number in maxArgs, 0 without one. *)
Definition max_args (d : adesc) (id : N) : N :=
  match find (fun o => o_id o =? id) (d_opts d) with
  | Some o => match mget (s2b "maxArgs") (o_opt o) with Some v => match cast_unsigned 32 v with Ok n => n | _ => 0 end | None => 0 end
  | None => 0
  end.

(** ** Proofs *)
Lemma bind_ok {X Y} (r : res X) (k : X -> res Y) y : (do x <- r; k x) = Ok y -> exists x, r = Ok x /\ k x = Ok y.
Proof. destruct r; cbn; try discriminate. intros E. eauto. Qed.
Lemma aseq_ok (m k : A) st st' : aseq m k st = (Ok true, st') -> exists s1, m st = (Ok true, s1) /\ k s1 = (Ok true, st').
Proof. unfold aseq. destruct (m st) as [[[|]| | | |] s1]; try discriminate. eauto. Qed.
Lemma alift_ok {T} (r : res T) (k : T -> A) st st' : alift r k st = (Ok true, st') -> exists t, r = Ok t /\ k t st = (Ok true, st').
Proof. unfold alift. destruct r; try discriminate. eauto. Qed.
Lemma find_opt_in d o : NoDup (List.map o_id (d_opts d)) -> In o (d_opts d) -> find_opt d (o_id o) = Some o.
Proof.
  unfold find_opt. induction (d_opts d) as [|x l IH]; intros ND I; [destruct I|]. inversion ND as [|? ? NI ND']; subst. cbn [find].
  destruct I as [-> | I]; [now rewrite N.eqb_refl|]. destruct (o_id x =? o_id o) eqn:E; [|auto].
  apply N.eqb_eq in E. exfalso. apply NI. rewrite E. apply in_map, I.
Qed.
Lemma find_opt_some d id o : find_opt d id = Some o -> In o (d_opts d) /\ o_id o = id.
Proof. unfold find_opt. intros F. apply find_some in F. destruct F as [I E]. now apply N.eqb_eq in E. Qed.

Lemma is_null_spec v : is_null v = true <-> v = VNull. Proof. destruct v; split; (reflexivity || discriminate). Qed.
Lemma is_null_false v : is_null v = false <-> v <> VNull. Proof. destruct v; split; (discriminate || tauto || reflexivity). Qed.

Section Facts.
  Variable flt : bytes -> option spec_float.
  Variable rx : bytes -> option (bytes -> bool).
  Variable env : bytes -> option bytes.
  Variable load : aaction -> bytes -> res value.
  Variable stale : bytes -> bool.
  Variable d : adesc.
  Hypothesis PL : plain d.
  Hypothesis ND : NoDup (List.map o_id (d_opts d)).

  Lemma bound_ok k o bad : bound k o bad = Ok tt -> forall b, mget (s2b k) (o_opt o) = Some b -> bad b = Ok false.
  Proof.
    unfold bound, akey. intros E b G. rewrite G in E. apply bind_ok in E. destruct E as ([|] & E & K); [discriminate|auto].
  Qed.
  Lemma any_equal_ok v l : any_equal v l = Ok true -> exists l1 x l2, l = l1 ++ x :: l2 /\ v_eq v x = Ok true /\ Forall (fun y => v_eq v y = Ok false) l1.
  Proof.
    induction l as [|x l IH]; cbn [any_equal]; intros E; [discriminate|]. apply bind_ok in E. destruct E as ([|] & E & K).
    - exists [], x, l. auto.
    - destruct (IH K) as (l1 & y & l2 & -> & Ey & FA). exists (x :: l1), y, l2. auto.
  Qed.
  Lemma tt_eq (x : unit) : x = tt. Proof. now destruct x. Qed.
  Lemma check_ok o v x : check_requirements rx o v = Ok x -> meets rx o v.
  Proof.
    unfold check_requirements. intros E. apply bind_ok in E. destruct E as (y & E1 & E2). rewrite (tt_eq y) in E1. clear y.
    assert (EN : forall e, mget (s2b "enum") (o_opt o) = Some e -> exists l1 x l2, e = VList (l1 ++ x :: l2) /\ v_eq v x = Ok true /\ Forall (fun y => v_eq v y = Ok false) l1).
    { unfold akey in E2. intros e G. rewrite G in E2. destruct e; try discriminate. apply bind_ok in E2. destruct E2 as ([|] & E2 & K); [|discriminate].
      apply any_equal_ok in E2. destruct E2 as (l1 & w & l2 & -> & Ew & FA). exists l1, w, l2. auto. }
    destruct v; constructor; try exact EN;
      try (intros ? [[? W]|[[? W]|[? W]]] ?; discriminate W); try (intros ? ? W; discriminate W).
    all: try (apply bind_ok in E1; destruct E1 as (u & B1 & B2); rewrite (tt_eq u) in B1).
    all: try (intros b' _ G; first [exact (bound_ok _ _ _ B1 _ G) | exact (bound_ok _ _ _ B2 _ G)]).
    all: apply bind_ok in B2; destruct B2 as (u' & B2 & B3); rewrite (tt_eq u') in B2; intros s' b W G; injection W as <-.
    - exact (bound_ok _ _ _ B1 _ G).
    - exact (bound_ok _ _ _ B2 _ G).
    - unfold akey in B3. rewrite G in B3. apply bind_ok in B3. destruct B3 as (p & SP & B3). destruct (rx (c_str p)) as [f|] eqn:RX; [|discriminate].
      exists p, f. split; [auto|]. split; [auto|]. destruct (f (c_str s)); [auto|discriminate].
  Qed.

  Lemma bound_meets k o bad : (forall b, mget (s2b k) (o_opt o) = Some b -> bad b = Ok false) -> bound k o bad = Ok tt.
  Proof. unfold bound, akey. intros H. destruct (mget (s2b k) (o_opt o)); [now rewrite (H _ eq_refl)|auto]. Qed.
  Lemma any_equal_meets v l1 x l2 : v_eq v x = Ok true -> Forall (fun y => v_eq v y = Ok false) l1 -> any_equal v (l1 ++ x :: l2) = Ok true.
  Proof. intros E F. induction F as [|y l1 Q F IH]; cbn [app any_equal]; [now rewrite E|now rewrite Q]. Qed.
  Lemma check_meets o v : meets rx o v -> check_requirements rx o v = Ok tt.
  Proof.
    intros [MI MA SH LO PA EN]. unfold check_requirements.
    assert (E2 : match akey "enum" o with None => Ok tt | Some (VList l) => do e <- any_equal v l; if (e : bool) then Ok tt else Throw RuntimeError | Some _ => Throw UnexpectedTypeError end = Ok tt).
    { unfold akey. destruct (mget (s2b "enum") (o_opt o)) as [e|] eqn:G; [|auto]. destruct (EN e eq_refl) as (l1 & x & l2 & -> & Ex & F). now rewrite (any_equal_meets _ _ _ _ Ex F). }
    rewrite E2. clear E2 EN. destruct v; try reflexivity.
    1-3: rewrite bound_meets by (intros b G; apply MI; eauto); rewrite bound_meets by (intros b G; apply MA; eauto); reflexivity.
    rewrite bound_meets by (intros b' G; eapply SH; eauto). rewrite bound_meets by (intros b' G; eapply LO; eauto).
    unfold akey. destruct (mget (s2b "pattern") (o_opt o)) as [p|] eqn:G; [|auto]. destruct (PA _ p eq_refl eq_refl) as (t & f & AS & RX & FS). rewrite AS. cbv beta iota delta [rbind]. now rewrite RX, FS.
  Qed.
  Lemma whole10_digits s neg m : whole10 s = Some (neg, m) <-> digits_of s neg m.
  Proof.
    unfold whole10, digits_of. destruct (take_sign (skip_space s)) as [n t].
    assert (SP : forall l ds r, span is_digit l = (ds, r) -> l = ds ++ r /\ forallb is_digit ds = true /\ match r with [] => True | x :: _ => is_digit x = false end).
    { clear. induction l as [|x l IH]; intros ds r E; cbn in E; [now injection E as <- <-|]. destruct (is_digit x) eqn:D; [|injection E as <- <-; cbn; auto].
      destruct (span is_digit l) as [a b] eqn:Q. injection E as <- <-. destruct (IH a b eq_refl) as (-> & F & R). cbn. rewrite D. auto. }
    destruct (span is_digit t) as [ds r] eqn:Q. destruct (SP _ _ _ Q) as (-> & F & R). split.
    - destruct ds as [|c ds]; [discriminate|]. destruct r; [|discriminate]. intros E. injection E as <- <-. exists (c :: ds). rewrite app_nil_r. split; [auto|]. split; [discriminate|auto].
    - intros (ds' & E & NE & D & ->). injection E as -> <-. destruct r as [|x r].
      + rewrite app_nil_r in *. destruct ds; [contradiction|auto].
      + exfalso. rewrite forallb_app in D. apply andb_true_iff in D. destruct D as [_ D]. cbn in D. now rewrite R in D.
  Qed.
  Lemma whole10_none s : whole10 s = None -> forall neg m, ~ digits_of s neg m.
  Proof. intros E neg m D. apply whole10_digits in D. congruence. Qed.
  (** What the code reads is what is claimed, for options that do not load files. *)
  Lemma reads_arg o s v : has_arg (o_action o) = true -> parse_arg flt stale o (Some s) = Ok v <-> reads flt stale (o_type o) s v.
  Proof.
    intros HA. unfold parse_arg. rewrite HA. unfold reads. destruct (o_type o).
    all: try (destruct (guess_scalar (stale s) s); (split; [intros E; now injection E as <-|now intros ->])).
    - destruct (whole10 s) as [[neg m]|] eqn:W.
      + assert (D := proj1 (whole10_digits s neg m) W).
        assert (U : forall neg' m', digits_of s neg' m' -> neg' = neg /\ m' = m) by (intros n' m' D'; apply whole10_digits in D'; split; congruence).
        set (z := if neg then (- Z.of_N m)%Z else Z.of_N m).
        assert (ZP : (2^63 - 1 <= z)%Z -> neg = false /\ z = Z.of_N m) by (unfold z; destruct neg; [lia|auto]).
        assert (MN : ull10 false m = N.min m (2^64 - 1)) by (unfold ull10; destruct (2^64 <=? m) eqn:Q; [apply N.leb_le in Q; lia|apply N.leb_gt in Q; lia]).
        assert (VAL : (if (z <? - 2^63)%Z then Ok (VInt (- 2^63)) else if ((2^63 - 1 <? z) || ((z =? 2^63 - 1) && stale s))%Z%bool then Ok (VUns (ull10 neg m)) else Ok (VInt z)) = Ok v <->
          (z < - 2^63 /\ v = VInt (- 2^63) \/ - 2^63 <= z < 2^63 - 1 /\ v = VInt z \/ z = 2^63 - 1 /\ v = (if stale s then VUns (Z.to_N z) else VInt z) \/ 2^63 - 1 < z /\ v = VUns (N.min m (2^64 - 1)))%Z).
        { assert (IJ : forall x y : value, Ok x = Ok y <-> y = x) by (intros; split; [intros E; now injection E|now intros ->]).
          destruct (z <? - 2^63)%Z eqn:Q1; [apply Z.ltb_lt in Q1; rewrite IJ; split; [intros ->; left; auto|intros [[_ K] | [K | [K | K]]]; [auto|lia|lia|lia]]|].
          apply Z.ltb_ge in Q1. destruct (2^63 - 1 <? z)%Z eqn:Q2; cbn [orb].
          - apply Z.ltb_lt in Q2. destruct (ZP ltac:(lia)) as [-> _]. rewrite MN, IJ. split; [intros ->; right; right; right; auto|intros [K | [K | [K | [_ K]]]]; [lia|lia|lia|auto]].
          - apply Z.ltb_ge in Q2. destruct (z =? 2^63 - 1)%Z eqn:Q3; cbn [andb].
            + apply Z.eqb_eq in Q3. destruct (ZP ltac:(lia)) as [-> ZM]. destruct (stale s); rewrite IJ.
              * replace (ull10 false m) with (Z.to_N z) by (rewrite MN, ZM, N2Z.id; lia). split; [intros ->; right; right; left; auto|intros [K | [K | [[_ K] | K]]]; [lia|lia|auto|lia]].
              * split; [intros ->; right; right; left; auto|intros [K | [K | [[_ K] | K]]]; [lia|lia|auto|lia]].
            + apply Z.eqb_neq in Q3. rewrite IJ. split; [intros ->; right; left; split; [lia|auto]|intros [K | [[_ K] | [K | K]]]; [lia|auto|lia|lia]]. }
        cbv zeta. fold z. rewrite VAL. split; [intros K; exists neg, m; auto|]. intros (n' & m' & D' & K). destruct (U _ _ D') as [-> ->]. exact K.
      + split; [discriminate|]. intros (n & m & D & _). exfalso. exact (whole10_none s W _ _ D).
    - destruct (whole10 s) as [[neg m]|] eqn:W.
      + assert (D := proj1 (whole10_digits s neg m) W).
        assert (U : forall neg' m', digits_of s neg' m' -> neg' = neg /\ m' = m) by (intros n' m' D'; apply whole10_digits in D'; split; congruence).
        split.
        * intros E. assert (EV : v = VUns (ull10 neg m)) by congruence. subst v. clear E. unfold ull10, wrap64. exists neg, m. split; [auto|]. destruct (2^64 <=? m) eqn:Q; [apply N.leb_le in Q; left; split; [exact Q|reflexivity]|apply N.leb_gt in Q; right; split; [exact Q|reflexivity]].
        * intros (n' & m' & D' & K). destruct (U _ _ D') as [-> ->]. unfold ull10, wrap64. destruct (2^64 <=? m) eqn:Q; [apply N.leb_le in Q|apply N.leb_gt in Q]; destruct K as [[? ->] | [? ->]]; auto; lia.
      + split; [discriminate|]. intros (n & m & D & _). exfalso. exact (whole10_none s W _ _ D).
    - destruct (flt s) as [x|]; [|split; [discriminate|intros (y & K & _); discriminate]].
      split; [intros E; injection E as <-; eauto|intros (y & K & ->); now injection K as ->].
  Qed.
  Lemma taken_arg o a v : In o (d_opts d) -> parse_arg flt stale o a = Ok v <-> taken flt stale o a v.
  Proof.
    intros I. assert (NC := PL o I). assert (RA := reads_arg o). unfold taken. unfold parse_arg in *. destruct (o_action o) eqn:AC; cbn [has_arg] in *; try (exfalso; apply NC; cbn; tauto).
    all: try (destruct a; (split; [intros E; (discriminate E || (injection E as <-; auto))|intros [K ->]; (discriminate K || auto)])).
    all: destruct a as [s|]; [|split; [discriminate|intros (s & K & _); discriminate K]].
    all: rewrite (RA s v eq_refl); split; [eauto|intros (t & K & R); now injection K as ->].
  Qed.

  (** One step of an option. *)
  Definition stepv (o : aopt) (r v : value) : value :=
    match o_action o with
    | AStore => v
    | AStoreConst => match mget (s2b "const") (o_opt o) with Some c => c | None => VNull end
    | AStoreTrue => VBool true
    | AStoreFalse => VBool false
    | AAppend => match r with VList l => VList (l ++ [v]) | _ => VList [v] end
    | ACount => match v_arith OpAdd r (VInt 1) with Ok x => x | _ => r end
    | _ => r
    end.
  Definition takes (o : aopt) : Prop := o_action o = AStore \/ o_action o = AAppend.
  Definition fits (o : aopt) (v : value) : Prop := takes o -> meets rx o v.
  (** An item of what happens: a counter set to zero, or an occurrence with its value. *)
  Inductive item := IZero (o : aopt) | IOcc (o : aopt) (v : value).
  Definition item_step (id : N) (r : value) (i : item) : value :=
    match i with
    | IZero o => if o_id o =? id then VUns 0 else r
    | IOcc o v => if o_id o =? id then stepv o r v else r
    end.
  Definition ran (its : list item) (st st' : astate) : Prop :=
    (forall id, a_res st' id = fold_left (item_step id) its (a_res st id)) /\ (a_print st' = false -> a_print st = false).
  Lemma ran_nil st : ran [] st st. Proof. split; auto. Qed.
  Lemma ran_app a b s1 s2 s3 : ran a s1 s2 -> ran b s2 s3 -> ran (a ++ b) s1 s3.
  Proof. intros [R1 P1] [R2 P2]. split; auto. intros id. now rewrite R2, R1, fold_left_app. Qed.

  Lemma parse_arg_noarg o a v : has_arg (o_action o) = false -> parse_arg flt stale o a = Ok v -> a = None /\ v = VNull.
  Proof. unfold parse_arg. intros ->. destruct a; [discriminate|]. intros E. now injection E as <-. Qed.
  Lemma parse_arg_scalar o a v l : parse_arg flt stale o a = Ok v -> v <> VList l.
  Proof.
    unfold parse_arg. destruct (has_arg (o_action o)); [|destruct a; intros E; [discriminate|injection E as <-; discriminate]].
    destruct a as [s|]; [|discriminate].
    destruct (o_type o); intros E;
    repeat match goal with H : context [match ?x with _ => _ end] |- _ => destruct x; try discriminate H end;
    injection E as <-; discriminate.
  Qed.
  Lemma aset_ran o v w st st' : aset (o_id o) w st = (Ok true, st') -> w = stepv o (a_res st (o_id o)) v -> ran [IOcc o v] st st'.
  Proof.
    intros E W. injection E as <-. split; [|auto]. intros id. cbn [fold_left item_step a_res]. rewrite (N.eqb_sym id).
    destruct (o_id o =? id) eqn:Q; [|auto]. apply N.eqb_eq in Q. subst id. auto.
  Qed.
  Lemma handle_ok fuel o a st st' : In o (d_opts d) -> handle_option flt rx load stale d fuel o a st = (Ok true, st') ->
    exists v, parse_arg flt stale o a = Ok v /\ fits o v /\ ran [IOcc o v] st st'.
  Proof.
    intros I E. apply alift_ok in E. destruct E as (v & P & E). exists v. split; auto.
    assert (exists c, handle_plain rx c o v st = (Ok true, st')) as (c & E').
    { destruct fuel; cbn [handle] in E; rewrite (find_opt_in d o ND I) in E; eauto. }
    clear E. assert (NC := PL o I). unfold handle_plain in E'. unfold fits, takes.
    destruct (o_action o) eqn:AC; try (exfalso; apply NC; cbn; tauto).
    - split; [intros [C | C]; discriminate C|]. injection E' as <-. split; [|auto]. intros id. cbn [fold_left item_step]. unfold stepv. rewrite AC. now destruct (o_id o =? id).
    - apply alift_ok in E'. destruct E' as (x & CK & E'). split; [intros _; eapply check_ok, CK|]. eapply aset_ran; [exact E'|]. unfold stepv. now rewrite AC.
    - split; [intros [C | C]; discriminate C|]. unfold akey in E'. destruct (mget (s2b "const") (o_opt o)) eqn:G; [|discriminate].
      eapply aset_ran; [exact E'|]. unfold stepv. now rewrite AC, G.
    - split; [intros [C | C]; discriminate C|]. destruct (parse_arg_noarg o a v) as [_ ->]; [now rewrite AC|auto|].
      eapply aset_ran; [exact E'|]. unfold stepv. now rewrite AC.
    - split; [intros [C | C]; discriminate C|]. destruct (parse_arg_noarg o a v) as [_ ->]; [now rewrite AC|auto|].
      eapply aset_ran; [exact E'|]. unfold stepv. now rewrite AC.
    - assert (L : match v with VList l => l | _ => [v] end = [v]). { destruct v; auto. exfalso. eapply parse_arg_scalar; eauto. }
      rewrite L in E'. cbn [aeach] in E'. apply aseq_ok in E'. destruct E' as (s1 & E' & Q). injection Q as <-.
      apply alift_ok in E'. destruct E' as (x & CK & E'). split; [intros _; eapply check_ok, CK|].
      unfold aappend, aget in E'. destruct (a_res st (o_id o)) eqn:R; try discriminate; (eapply aset_ran; [exact E'|]); unfold stepv; now rewrite AC, R.
    - split; [intros [C | C]; discriminate C|]. destruct (parse_arg_noarg o a v) as [_ ->]; [now rewrite AC|auto|].
      unfold aget in E'. cbn [type_of is_num] in E'. apply alift_ok in E'. destruct E' as (w & AR & E'). apply bind_ok in AR. destruct AR as (n & N1 & AR). injection N1 as <-.
      eapply aset_ran; [exact E'|]. unfold stepv. now rewrite AC, AR.
    - split; [intros [C | C]; discriminate C|]. injection E' as <-. split; [|discriminate]. intros id. cbn [fold_left item_step a_res]. unfold stepv. rewrite AC. now destruct (o_id o =? id).
    - split; [intros [C | C]; discriminate C|]. injection E' as <-. split; [|discriminate]. intros id. cbn [fold_left item_step a_res]. unfold stepv. rewrite AC. now destruct (o_id o =? id).
    - split; [intros [C | C]; discriminate C|]. injection E' as <-. split; [|discriminate]. intros id. cbn [fold_left item_step a_res]. unfold stepv. rewrite AC. now destruct (o_id o =? id).
  Qed.

  (** Occurrences and the items they make. *)
  Definition parsed (oa : aopt * option bytes) (i : item) : Prop := exists v, i = IOcc (fst oa) v /\ parse_arg flt stale (fst oa) (snd oa) = Ok v /\ fits (fst oa) v.
  Lemma each_ok fuel (l : list (aopt * option bytes)) : (forall oa, In oa l -> In (fst oa) (d_opts d)) -> forall st st',
    aeach (fun oa => handle_option flt rx load stale d fuel (fst oa) (snd oa)) l st = (Ok true, st') -> exists its, Forall2 parsed l its /\ ran its st st'.
  Proof.
    induction l as [|[o a] l IH]; intros IN st st' E.
    - injection E as <-. exists []. split; [constructor|apply ran_nil].
    - cbn [aeach fst snd] in E. apply aseq_ok in E. destruct E as (s1 & E1 & E2).
      destruct (handle_ok _ _ _ _ _ (IN _ (or_introl eq_refl)) E1) as (v & P & F & R1).
      destruct (IH (fun x I => IN x (or_intror I)) _ _ E2) as (its & FA & R2).
      exists (IOcc o v :: its). split; [|exact (ran_app [_] _ _ _ _ R1 R2)]. constructor; [|auto]. exists v. auto.
  Qed.

  (** The environment. *)
  Definition env_text (o : aopt) : list (option bytes) :=
    match mget (s2b "env") (o_opt o) with
    | Some n => match as_string n with Ok n => match env (c_str n) with Some s => [Some s] | None => [] end | _ => [] end
    | None => []
    end.
  Definition zero (o : aopt) : list item := match o_action o with ACount => [IZero o] | _ => [] end.
  Inductive started : list aopt -> list item -> Prop :=
    | started_nil : started [] []
    | started_cons o l its r : Forall2 parsed (List.map (pair o) (env_text o)) its -> started l r -> started (o :: l) (zero o ++ its ++ r).
  Lemma zero_ok o st st' : match o_action o with ACount => aset (o_id o) (VUns 0) | _ => aok end st = (Ok true, st') -> ran (zero o) st st'.
  Proof.
    unfold zero. destruct (o_action o); intros E; injection E as <-; try apply ran_nil. split; [|auto].
    intros id. cbn [fold_left item_step a_res]. now rewrite (N.eqb_sym id).
  Qed.
  Lemma start_ok fuel l : (forall o, In o l -> In o (d_opts d)) -> forall st st',
    aeach (a_start flt rx env load stale d fuel) l st = (Ok true, st') -> exists its, started l its /\ ran its st st'.
  Proof.
    induction l as [|o l IH]; intros IN st st' E.
    - injection E as <-. exists []. split; [constructor|apply ran_nil].
    - cbn [aeach] in E. apply aseq_ok in E. destruct E as (s1 & E1 & E2). unfold a_start in E1. apply aseq_ok in E1. destruct E1 as (s0 & Z & E1).
      apply zero_ok in Z. apply alift_ok in E1. destruct E1 as (e & FE & E1).
      assert (exists its, Forall2 parsed (List.map (pair o) (env_text o)) its /\ ran its s0 s1) as (its & FA & R1).
      { apply (each_ok fuel); [intros oa IA; apply in_map_iff in IA; destruct IA as (x & <- & _); apply IN; now left|].
        unfold from_env, akey in FE. unfold env_text. destruct (mget (s2b "env") (o_opt o)) as [n|]; [|injection FE as <-; exact E1].
        apply bind_ok in FE. destruct FE as (t & AS & FE). rewrite AS. injection FE as <-. destruct (env (c_str t)) as [s|]; [|exact E1].
        cbn [List.map aeach fst snd]. unfold aseq. rewrite E1. reflexivity. }
      destruct (IH (fun x I => IN x (or_intror I)) _ _ E2) as (r & ST & R2).
      exists (zero o ++ its ++ r). split; [now constructor|]. eapply ran_app; [exact Z|]. eapply ran_app; eauto.
  Qed.

  (** The command line. *)
  Definition answered (e : gev) (i : item) : Prop := exists o a v, e = GOpt (o_id o) a /\ In o (d_opts d) /\ i = IOcc o v /\ parse_arg flt stale o a = Ok v /\ fits o v.
  Lemma events_ok fuel evs : forall st st', aeach (a_event flt rx load stale d fuel) evs st = (Ok true, st') -> exists its, Forall2 answered evs its /\ ran its st st'.
  Proof.
    induction evs as [|e evs IH]; intros st st' E.
    - injection E as <-. exists []. split; [constructor|apply ran_nil].
    - cbn [aeach] in E. apply aseq_ok in E. destruct E as (s1 & E1 & E2). destruct (IH _ _ E2) as (its & FA & R2).
      destruct e as [id a|]; [|discriminate]. cbn [a_event] in E1. destruct (find_opt d id) as [o|] eqn:F; [|discriminate].
      apply find_opt_some in F. destruct F as [I <-]. destruct (handle_ok _ _ _ _ _ I E1) as (v & P & FT & R1).
      exists (IOcc o v :: its). split; [|exact (ran_app [_] _ _ _ _ R1 R2)]. constructor; [|auto]. exists o, a, v. split; [auto|]. split; [auto|]. split; [auto|]. split; auto.
  Qed.

  (** The arguments. *)
  Inductive handed : list N -> list (list bytes) -> list item -> Prop :=
    | handed_nil : handed [] [] []
    | handed_cons o ids s ss its r : In o (d_opts d) -> Forall2 parsed (List.map (fun x => (o, Some x)) s) its -> handed ids ss r -> handed (o_id o :: ids) (s :: ss) (its ++ r).
  Lemma llen_le {T} (l : list T) n : (List.length l <= N.to_nat n)%nat -> llen l <= n. Proof. unfold llen. lia. Qed.
  Lemma each_map {X Y} (f : Y -> A) (g : X -> Y) l st : aeach f (List.map g l) st = aeach (fun x => f (g x)) l st.
  Proof. revert st. induction l as [|x l IH]; intros st; [auto|]. cbn [List.map aeach]. unfold aseq. destruct (f (g x) st) as [[[|]| | | |] s]; auto. Qed.
  Lemma args_ok fuel ids : forall rest st st', take_args flt rx load stale d fuel ids rest st = (Ok true, st') ->
    exists ss its, dealt (max_args d) ids rest ss /\ handed ids ss its /\ ran its st st'.
  Proof.
    induction ids as [|id ids IH]; intros rest st st' E; cbn [take_args] in E.
    - destruct rest; [|discriminate]. injection E as <-. exists [], []. split; [constructor|]. split; [constructor|apply ran_nil].
    - destruct (find_opt d id) as [o|] eqn:F; [|discriminate]. assert (FS := find_opt_some _ _ _ F). destruct FS as [I <-].
      apply alift_ok in E. destruct E as (mn & _ & E). apply alift_ok in E. destruct E as (mx & MX & E).
      assert (M : max_args d (o_id o) = mx).
      { unfold max_args. unfold find_opt in F. rewrite F. unfold get_unsigned, akey in MX. destruct (mget (s2b "maxArgs") (o_opt o)); [now rewrite MX|now injection MX]. }
      match type of E with context [if ?c then _ else _] => destruct c; [discriminate|] end.
      cbv zeta in E. set (n := if mx =? 0 then List.length rest else Nat.min (N.to_nat mx) (List.length rest)) in E.
      apply aseq_ok in E. destruct E as (s1 & E1 & E2). destruct (IH _ _ _ E2) as (ss & its & DL & HD & R2).
      assert (exists j, Forall2 parsed (List.map (fun x => (o, Some x)) (firstn n rest)) j /\ ran j st s1) as (j & FA & R1).
      { apply (each_ok fuel); [intros oa IA; apply in_map_iff in IA; destruct IA as (x & <- & _); auto|]. rewrite each_map. exact E1. }
      exists (firstn n rest :: ss), (j ++ its). split; [|split; [now constructor|eapply ran_app; eauto]].
      rewrite <- (firstn_skipn n rest) at 1. constructor; [| |exact DL]; rewrite M.
      + intros NZ. apply llen_le. rewrite firstn_length. subst n. apply N.eqb_neq in NZ. rewrite NZ. lia.
      + intros NE. destruct (mx =? 0) eqn:Q; subst n.
        * exfalso. apply NE. apply skipn_all.
        * apply N.eqb_neq in Q. split; [auto|]. unfold llen. rewrite firstn_length. destruct (Nat.le_gt_cases (List.length rest) (N.to_nat mx)) as [L|L].
          -- exfalso. apply NE. apply skipn_all2. lia.
          -- lia.
  Qed.
  Lemma min_same ids st st' : check_min d ids st = (Ok true, st') -> st' = st.
  Proof.
    induction ids as [|id ids IH]; cbn [check_min]; intros E; [now injection E as <-|]. destruct (find_opt d id); [|discriminate].
    apply alift_ok in E. destruct E as (n & _ & E). destruct (0 <? n); [auto|now injection E as <-].
  Qed.

  (** The defaults. *)
  Definition settled (o : aopt) (s0 s1 : astate) : Prop :=
    (a_res s0 (o_id o) <> VNull -> a_res s1 (o_id o) = a_res s0 (o_id o)) /\
    (a_res s0 (o_id o) = VNull -> a_res s1 (o_id o) = VNull \/ exists v, storing (o_action o) /\ mget (s2b "default") (o_opt o) = Some v /\ a_res s1 (o_id o) = defaulted o v) /\
    (forall v, a_res s0 (o_id o) = VNull -> storing (o_action o) -> mget (s2b "default") (o_opt o) = Some v ->
       a_res s1 (o_id o) = defaulted o v \/ exists g i, In g (d_groups d) /\ g_exclusive g = true /\ In (o_id o) (g_members g) /\ In i (g_members g) /\ i <> o_id o /\ a_res s1 i <> VNull) /\
    (o_required o = true -> a_res s1 (o_id o) <> VNull) /\
    (forall l m, o_action o = AAppend -> a_res s1 (o_id o) = VList l -> mget (s2b "maxArgs") (o_opt o) = Some m -> v_ne m (VInt 0) = Ok true -> v_lt m (VUns (wrap32 (llen l))) = Ok false) /\
    (forall l m, o_action o = AAppend -> a_res s1 (o_id o) = VList l -> mget (s2b "minArgs") (o_opt o) = Some m -> v_gt m (VUns (wrap32 (llen l))) = Ok false).
  Definition keeps (s0 s1 : astate) : Prop := (forall j, a_res s0 j <> VNull -> a_res s1 j = a_res s0 j) /\ a_print s1 = a_print s0.
  Lemma keeps_trans s0 s1 s2 : keeps s0 s1 -> keeps s1 s2 -> keeps s0 s2.
  Proof. intros [A1 B1] [A2 B2]. split; [|congruence]. intros j N. rewrite A2; rewrite ?A1; auto. Qed.
  Lemma rival_some o st : rival d o st = true -> exists g i, In g (d_groups d) /\ g_exclusive g = true /\ In (o_id o) (g_members g) /\ In i (g_members g) /\ a_res st i <> VNull.
  Proof.
    unfold rival. intros E. apply existsb_exists in E. destruct E as (g & G & E). apply andb_true_iff in E. destruct E as [E E3]. apply andb_true_iff in E. destruct E as [E1 E2].
    apply existsb_exists in E2. destruct E2 as (i & I & E2). apply N.eqb_eq in E2. subst i. apply existsb_exists in E3. destruct E3 as (i & J & E3).
    apply negb_true_iff, is_null_false in E3. exists g, i. auto.
  Qed.
  Lemma aset_spec id v st s1 : aset id v st = (Ok true, s1) -> a_res s1 id = v /\ (forall j, j <> id -> a_res s1 j = a_res st j) /\ a_print s1 = a_print st.
  Proof. intros E. injection E as <-. cbn [a_res a_print]. rewrite N.eqb_refl. split; [auto|]. split; [|auto]. intros j N. apply N.eqb_neq in N. now rewrite N. Qed.
  Lemma default_one o st s1 : a_default d o st = (Ok true, s1) ->
    s1 = st \/ (exists v, mget (s2b "default") (o_opt o) = Some v /\ a_res st (o_id o) = VNull /\ storing (o_action o) /\
                  a_res s1 (o_id o) = defaulted o v /\ (forall j, j <> o_id o -> a_res s1 j = a_res st j) /\ a_print s1 = a_print st).
  Proof.
    unfold a_default, akey. destruct (mget (s2b "default") (o_opt o)) as [v|] eqn:G; [|intros E; injection E as <-; now left].
    destruct (is_null (a_res st (o_id o))) eqn:Q; cbn [andb]; [|intros E; injection E as <-; now left].
    apply is_null_spec in Q. destruct (negb (rival d o st)); [|intros E; injection E as <-; now left].
    unfold defaulted, storing. destruct (o_action o) eqn:AC; intros E; try (injection E as <-; now left); right; exists v.
    all: try (unfold aappend, aget in E; rewrite Q in E).
    all: apply aset_spec in E; destruct E as (E1 & E2 & E3).
    all: split; [auto|]; split; [auto|]; split; [cbn; tauto|]; auto.
  Qed.
  Lemma default_due o st s1 v : a_default d o st = (Ok true, s1) -> a_res st (o_id o) = VNull -> storing (o_action o) -> mget (s2b "default") (o_opt o) = Some v ->
    a_res s1 (o_id o) = defaulted o v \/ rival d o st = true.
  Proof.
    unfold a_default, akey. intros E Q SG G. rewrite G, Q in E. cbn [is_null andb] in E. destruct (rival d o st); [now right|]. left. cbn [negb] in E.
    unfold defaulted. destruct (o_action o); try (solve [exfalso; cbn in SG; repeat (destruct SG as [SG | SG]; [discriminate SG|]); destruct SG]).
    all: try (unfold aappend, aget in E; rewrite Q in E). all: apply aset_spec in E; apply E.
  Qed.
  Lemma check_one o s1 s2 : a_check o s1 = (Ok true, s2) -> s2 = s1 /\ (o_required o = true -> a_res s1 (o_id o) <> VNull) /\
    (forall l m, o_action o = AAppend -> a_res s1 (o_id o) = VList l -> mget (s2b "maxArgs") (o_opt o) = Some m -> v_ne m (VInt 0) = Ok true -> v_lt m (VUns (wrap32 (llen l))) = Ok false) /\
    (forall l m, o_action o = AAppend -> a_res s1 (o_id o) = VList l -> mget (s2b "minArgs") (o_opt o) = Some m -> v_gt m (VUns (wrap32 (llen l))) = Ok false).
  Proof.
    unfold a_check, aget. destruct (is_null (a_res s1 (o_id o))) eqn:Q; intros E.
    - apply is_null_spec in Q. destruct (o_required o); [discriminate|]. injection E as <-. split; [auto|]. split; [discriminate|]. split; intros l m _ R; rewrite Q in R; discriminate.
    - apply is_null_false in Q. split; [|split; [auto|]].
      + destruct (o_action o); try (now injection E as <-). apply alift_ok in E. destruct E as (? & _ & E). apply alift_ok in E. destruct E as (? & _ & E). now injection E as <-.
      + split; intros l m AC R G; rewrite AC in E; unfold akey in E; rewrite R in E; cbn [vsize] in E; apply alift_ok in E; destruct E as (? & E1 & E).
        * intros NZ. rewrite G in E1. apply bind_ok in E1. destruct E1 as (z & Z1 & E1). rewrite NZ in Z1. injection Z1 as <-.
          apply bind_ok in E1. destruct E1 as ([|] & L1 & E1); [discriminate|auto].
        * apply alift_ok in E. destruct E as (? & E2 & E). rewrite G in E2. apply bind_ok in E2. destruct E2 as ([|] & L1 & E2); [discriminate|auto].
  Qed.
  Lemma fin_one o st s2 : a_finalize d o st = (Ok true, s2) -> keeps st s2 /\ (forall j, j <> o_id o -> a_res s2 j = a_res st j) /\ settled o st s2.
  Proof.
    intros E. apply aseq_ok in E. destruct E as (s1 & E1 & E2). destruct (check_one _ _ _ E2) as (-> & RQ & MX & MN).
    assert (DD := default_due o st s1). destruct (default_one _ _ _ E1) as [-> | (v & G & Q & SG & R & OT & PR)].
    - split; [split; auto|]. split; [auto|]. split; [auto|]. split; [auto|]. split; [|auto].
      intros v Q SG G. destruct (DD v E1 Q SG G) as [D | D]; [now left|right]. destruct (rival_some _ _ D) as (g & i & ? & ? & ? & ? & NN).
      exists g, i. repeat (split; [auto; intros ->; contradiction|]). auto.
    - split; [split; [|auto]; intros j NN; destruct (N.eq_dec j (o_id o)) as [-> | NE]; [contradiction|auto]|]. split; [auto|].
      split; [intros NN; contradiction|]. split; [intros _; right; eauto|]. split; [|auto]. intros w _ _ G'. left. congruence.
  Qed.
  Lemma fin_all l : NoDup (List.map o_id l) -> forall st st', aeach (a_finalize d) l st = (Ok true, st') ->
    keeps st st' /\ (forall j, ~ In j (List.map o_id l) -> a_res st' j = a_res st j) /\ (forall o, In o l -> settled o st st').
  Proof.
    induction l as [|o l IH]; intros NDl st st' E.
    - injection E as <-. split; [split; auto|]. split; [auto|intros ? []].
    - cbn [aeach] in E. apply aseq_ok in E. destruct E as (s1 & E1 & E2). inversion NDl as [|? ? NI ND']; subst.
      destruct (fin_one _ _ _ E1) as (K1 & O1 & S1). destruct (IH ND' _ _ E2) as (K2 & O2 & S2). split; [eapply keeps_trans; eauto|].
      split; [intros j NJ; rewrite O2, O1; [auto|intros ->; apply NJ; now left|intros K; apply NJ; now right]|].
      intros x [<- | I].
      + assert (RE : a_res st' (o_id o) = a_res s1 (o_id o)) by (apply O2; exact NI). destruct S1 as (A1 & A2 & A3 & A4 & A5 & A6).
        unfold settled. rewrite !RE. split; [auto|]. split; [auto|]. split; [|auto].
        intros v Q SG G. destruct (A3 v Q SG G) as [D | (g & i & ? & ? & ? & ? & ? & NN)]; [now left|right]. exists g, i. repeat (split; [auto|]). rewrite (proj1 K2); auto.
      + assert (NE : o_id x <> o_id o). { intros Q. apply NI. rewrite <- Q. apply in_map, I. }
        specialize (S2 x I). unfold settled in *. now rewrite (O1 _ NE) in S2.
  Qed.
  Lemma group_one g st s1 : g_finalize g st = (Ok true, s1) -> s1 = st /\ (g_exclusive g = true ->
    (forall i j, In i (g_members g) -> In j (g_members g) -> a_res st i <> VNull -> a_res st j <> VNull -> i = j) /\
    (g_required g = true -> exists i, In i (g_members g) /\ a_res st i <> VNull)).
  Proof.
    unfold g_finalize. destruct (g_exclusive g); [|intros E; injection E as <-; split; [auto|discriminate]].
    set (f := fun i => negb (is_null (a_res st i))). set (L := filter f (nodup N.eq_dec (g_members g))). cbv zeta.
    assert (NDL : NoDup L) by (apply NoDup_filter, NoDup_nodup).
    assert (INL : forall i, In i (g_members g) -> a_res st i <> VNull -> In i L).
    { intros i I N. apply filter_In. split; [now apply nodup_In|]. unfold f. apply is_null_false in N. now rewrite N. }
    destruct (1 <? List.length L)%nat eqn:Q; [discriminate|]. apply Nat.ltb_ge in Q.
    destruct (g_required g && Nat.eqb (List.length L) 0)%bool eqn:Q2; [discriminate|]. intros E. injection E as <-. split; [auto|]. intros _. split.
    - intros i j I J NI NJ. specialize (INL i I NI) as I1. specialize (INL j J NJ) as J1. destruct L as [|a [|b t]]; [destruct I1| |cbn in Q; lia].
      destruct I1 as [<- | []]. destruct J1 as [<- | []]. auto.
    - intros R. rewrite R in Q2. cbn [andb] in Q2. destruct L as [|a t] eqn:EL; [discriminate|].
      assert (IA : In a L) by (rewrite EL; now left). apply filter_In in IA. destruct IA as [IA FA]. exists a. split; [now apply nodup_In in IA|].
      unfold f in FA. apply negb_true_iff, is_null_false in FA. exact FA.
  Qed.
  Lemma groups_all l : forall st st', aeach g_finalize l st = (Ok true, st') -> st' = st /\ forall g, In g l -> g_exclusive g = true ->
    (forall i j, In i (g_members g) -> In j (g_members g) -> a_res st i <> VNull -> a_res st j <> VNull -> i = j) /\
    (g_required g = true -> exists i, In i (g_members g) /\ a_res st i <> VNull).
  Proof.
    induction l as [|g l IH]; intros st st' E.
    - injection E as <-. split; [auto|intros ? []].
    - cbn [aeach] in E. apply aseq_ok in E. destruct E as (s1 & E1 & E2). destruct (group_one _ _ _ E1) as [-> G1]. destruct (IH _ _ E2) as [-> G2].
      split; [auto|]. intros x [<- | I]; auto.
  Qed.

  (** From the items to the values. *)
  Definition of_id (id : N) (i : item) : bool := match i with IZero o | IOcc o _ => o_id o =? id end.
  Lemma fold_filter id its r : fold_left (item_step id) its r = fold_left (item_step id) (filter (of_id id) its) r.
  Proof.
    revert r. induction its as [|i its IH]; intros r; [auto|]. cbn [fold_left filter]. rewrite IH.
    destruct i as [o|o v]; cbn [of_id item_step]; destruct (o_id o =? id) eqn:Q; cbn [fold_left item_step]; rewrite ?Q; auto.
  Qed.
  Definition made (o : aopt) (g : list (option bytes)) (vs : list value) : Prop := Forall2 (fun a v => parse_arg flt stale o a = Ok v /\ fits o v) g vs.
  Lemma made_app o g1 g2 v1 v2 : made o g1 v1 -> made o g2 v2 -> made o (g1 ++ g2) (v1 ++ v2). Proof. apply Forall2_app. Qed.
  (** Occurrences of the option itself. *)
  Lemma own o id l its : Forall2 parsed (List.map (pair o) l) its -> exists vs, its = List.map (IOcc o) vs /\ made o l vs /\
    filter (of_id id) its = if o_id o =? id then List.map (IOcc o) vs else [].
  Proof.
    revert its. induction l as [|a l IH]; intros its F; inversion F as [|? i ? t (v & -> & P & FT) F']; subst.
    - exists []. split; [auto|]. split; [constructor|]. now destruct (o_id o =? id).
    - destruct (IH _ F') as (vs & -> & M & FI). exists (v :: vs). split; [auto|]. split; [constructor; auto|]. cbn [filter of_id fst]. destruct (o_id o =? id); [now rewrite FI|auto].
  Qed.
  Lemma started_of o l its : NoDup (List.map o_id l) -> started l its ->
    (In o l -> exists vs, filter (of_id (o_id o)) its = zero o ++ List.map (IOcc o) vs /\ made o (env_text o) vs) /\
    (~ In (o_id o) (List.map o_id l) -> filter (of_id (o_id o)) its = []).
  Proof.
    intros NDl S. induction S as [|x l its r F S IH].
    - split; [intros []|auto].
    - inversion NDl as [|? ? NI ND']; subst. specialize (IH ND'). destruct (own x (o_id o) _ _ F) as (vs & _ & M & FI).
      assert (FZ : filter (of_id (o_id o)) (zero x) = if o_id x =? o_id o then zero x else []).
      { unfold zero. destruct (o_action x); cbn [filter of_id]; destruct (o_id x =? o_id o); auto. }
      split.
      + intros [-> | I].
        * exists vs. rewrite !filter_app, FZ, FI, N.eqb_refl, (proj2 IH NI), app_nil_r. auto.
        * destruct (proj1 IH I) as (ws & FW & MW). exists ws. rewrite !filter_app, FZ, FI, FW.
          destruct (o_id x =? o_id o) eqn:Q; [|auto]. apply N.eqb_eq in Q. exfalso. apply NI. rewrite Q. apply in_map, I.
      + intros NJ. cbn in NJ. rewrite !filter_app, FZ, FI, (proj2 IH) by tauto. destruct (o_id x =? o_id o) eqn:Q; [apply N.eqb_eq in Q; tauto|auto].
  Qed.
  Lemma same_opt o x : In o (d_opts d) -> In x (d_opts d) -> o_id x = o_id o -> x = o.
  Proof. intros I J Q. assert (E := find_opt_in d o ND I). rewrite <- Q, (find_opt_in d x ND J) in E. now injection E. Qed.
  Lemma answered_of o evs its : In o (d_opts d) -> Forall2 answered evs its -> exists vs, filter (of_id (o_id o)) its = List.map (IOcc o) vs /\ made o (on_line (o_id o) evs) vs.
  Proof.
    intros IO F. induction F as [|e i evs its (x & a & v & -> & IX & -> & P & FT) F IH].
    - exists []. split; [auto|constructor].
    - destruct IH as (vs & FI & M). cbn [filter of_id on_line flat_map]. destruct (o_id x =? o_id o) eqn:Q.
      + apply N.eqb_eq in Q. apply (same_opt o x IO IX) in Q. subst x. exists (v :: vs). rewrite FI. split; [auto|]. cbn [app]. constructor; auto.
      + exists vs. auto.
  Qed.
  Lemma handed_of o ids ss its : In o (d_opts d) -> handed ids ss its -> exists vs, filter (of_id (o_id o)) its = List.map (IOcc o) vs /\ made o (share (o_id o) ids ss) vs.
  Proof.
    intros IO H. induction H as [|x ids s ss its r IX F H IH].
    - exists []. split; [auto|constructor].
    - destruct IH as (vs & FI & M). rewrite <- (map_map Some (pair x)) in F. destruct (own x (o_id o) _ _ F) as (ws & _ & MW & FW). rewrite filter_app, FI, FW.
      unfold share. cbn [List.combine flat_map fst snd]. fold (share (o_id o) ids ss). destruct (o_id x =? o_id o) eqn:Q.
      + apply N.eqb_eq in Q. apply (same_opt o x IO IX) in Q. subst x. exists (ws ++ vs). rewrite map_app. split; [auto|]. now apply made_app.
      + exists vs. auto.
  Qed.
  Lemma arith_one n : v_arith OpAdd (VUns n) (VInt 1) = Ok (VUns (wrap64 (n + 1))).
  Proof. reflexivity. Qed.
  Lemma fold_own o vs : fold_left (item_step (o_id o)) (zero o ++ List.map (IOcc o) vs) VNull = summary o vs.
  Proof.
    assert (ST : forall l r, fold_left (item_step (o_id o)) (List.map (IOcc o) l) r = fold_left (stepv o) l r).
    { induction l as [|v l IH]; intros r; [auto|]. cbn [List.map fold_left item_step]. rewrite N.eqb_refl. apply IH. }
    rewrite fold_left_app, ST. unfold zero, summary.
    assert (CONST : forall c, (forall r v, stepv o r v = c) -> fold_left (stepv o) vs VNull = match vs with [] => VNull | _ => c end).
    { intros c H. destruct vs as [|v l]; [auto|]. cbn [fold_left]. rewrite H. clear -H. induction l as [|w l IH]; [auto|]. cbn [fold_left]. now rewrite H. }
    assert (SAME : (forall r v, stepv o r v = r) -> forall r, fold_left (stepv o) vs r = r).
    { intros H. clear CONST. induction vs as [|v l IH]; intros r; [auto|]. cbn [fold_left]. rewrite H. auto. }
    destruct (o_action o) eqn:AC; cbn [fold_left item_step].
    all: try (apply SAME; intros; unfold stepv; now rewrite AC).
    all: try (apply CONST; intros; unfold stepv; now rewrite AC).
    - clear CONST SAME ST. assert (forall l r, fold_left (stepv o) l r = last l r) as H; [|apply H].
      induction l as [|v l IH]; intros r; [auto|]. cbn [fold_left]. unfold stepv at 2. rewrite AC, IH. destruct l as [|w l]; [auto|]. cbn [last]. clear. revert w. induction l as [|x l IH]; intros w; [auto|]. exact (IH x).
    - destruct vs as [|v l]; [auto|]. cbn [fold_left]. unfold stepv at 2. rewrite AC. change (v :: l) with ([v] ++ l). generalize [v]. clear -AC. induction l as [|w l IH]; intros p; [now rewrite app_nil_r|].
      cbn [fold_left]. unfold stepv at 2. rewrite AC. rewrite IH, <- app_assoc. reflexivity.
    - rewrite N.eqb_refl. clear -AC. unfold llen. change (VUns 0) with (VUns (wrap64 0)). replace (N.of_nat (List.length vs)) with (0 + N.of_nat (List.length vs)) by lia. generalize 0 as n.
      induction vs as [|v l IH]; intros n; cbn [fold_left]; [cbn [List.length]; now rewrite N.add_0_r|]. unfold stepv at 2. rewrite AC, arith_one.
      replace (wrap64 (wrap64 n + 1)) with (wrap64 (n + 1)) by (unfold wrap64; now rewrite N.add_mod_idemp_l). rewrite IH. do 2 f_equal. cbn [List.length]. lia.
  Qed.
End Facts.

(** ** The values *)
(** If Parse comes back, then the arguments have been dealt out to the positional options, and the value of every option is the one
    that its occurrences in the environment, on the command line and among the arguments make, all of them within what the option demands;
    its default if there are none, unless an option that excludes it has a value; and not null if it is required. *)
Theorem C52_values_partial flt rx env load stale d fuel evs rest st : plain d -> NoDup (List.map o_id (d_opts d)) ->
  a_run flt rx env load stale d fuel evs rest a_init = Done st ->
  exists shares, dealt (max_args d) (d_args d) rest shares /\
  forall o, In o (d_opts d) -> exists vs,
    Forall2 (taken flt stale o) (env_text env o ++ on_line (o_id o) evs ++ share (o_id o) (d_args d) shares) vs /\
    (o_action o = AStore \/ o_action o = AAppend -> Forall (meets rx o) vs) /\
    (summary o vs <> VNull -> a_res st (o_id o) = summary o vs) /\
    (summary o vs = VNull -> a_res st (o_id o) = VNull \/ exists v, storing (o_action o) /\ mget (s2b "default") (o_opt o) = Some v /\ a_res st (o_id o) = defaulted o v) /\
    (forall v, summary o vs = VNull -> storing (o_action o) -> mget (s2b "default") (o_opt o) = Some v ->
       a_res st (o_id o) = defaulted o v \/ exists g i, In g (d_groups d) /\ g_exclusive g = true /\ In (o_id o) (g_members g) /\ In i (g_members g) /\ i <> o_id o /\ a_res st i <> VNull) /\
    (o_required o = true -> a_res st (o_id o) <> VNull) /\
    (forall l m, o_action o = AAppend -> a_res st (o_id o) = VList l -> mget (s2b "maxArgs") (o_opt o) = Some m -> v_ne m (VInt 0) = Ok true -> v_lt m (VUns (wrap32 (llen l))) = Ok false) /\
    (forall l m, o_action o = AAppend -> a_res st (o_id o) = VList l -> mget (s2b "minArgs") (o_opt o) = Some m -> v_gt m (VUns (wrap32 (llen l))) = Ok false).
Proof.
  intros PL ND E. unfold a_run, a_all in E.
  match type of E with match ?m with _ => _ end = _ => destruct m as [[[|]| | | |] s] eqn:R; try discriminate end.
  destruct (a_print s) eqn:PR; [discriminate|]. injection E as ->.
  apply aseq_ok in R. destruct R as (s1 & R1 & R). apply aseq_ok in R. destruct R as (s2 & R2 & R). apply aseq_ok in R. destruct R as (s3 & R3 & R).
  apply aseq_ok in R. destruct R as (s4 & R4 & R). apply aseq_ok in R. destruct R as (s5 & R5 & R6).
  apply min_same in R3. subst s3.
  destruct (start_ok flt rx env load stale d PL ND fuel (d_opts d) (fun o I => I) _ _ R1) as (i1 & S1 & Q1).
  destruct (events_ok flt rx load stale d PL ND fuel _ _ _ R2) as (i2 & S2 & Q2).
  destruct (args_ok flt rx load stale d PL ND fuel _ _ _ _ R4) as (shares & i3 & DL & S3 & Q3).
  destruct (fin_all d _ ND _ _ R5) as (_ & _ & FN). destruct (groups_all _ _ _ R6) as [-> _].
  exists shares. split; [exact DL|]. intros o IO.
  destruct (proj1 (started_of flt rx env stale o _ _ ND S1) IO) as (v1 & F1 & M1).
  destruct (answered_of flt rx stale d ND o _ _ IO S2) as (v2 & F2 & M2). destruct (handed_of flt rx stale d ND o _ _ _ IO S3) as (v3 & F3 & M3).
  assert (RES : a_res s4 (o_id o) = summary o (v1 ++ v2 ++ v3)).
  { rewrite (proj1 Q3), (proj1 Q2), (proj1 Q1), <- !fold_left_app, fold_filter, !filter_app, F1, F2, F3, <- fold_own. cbn [a_init a_res].
    f_equal. rewrite !map_app, !app_assoc. reflexivity. }
  assert (M : made flt rx stale o (env_text env o ++ on_line (o_id o) evs ++ share (o_id o) (d_args d) shares) (v1 ++ v2 ++ v3)) by (do 2 (apply made_app; [assumption|]); assumption).
  exists (v1 ++ v2 ++ v3). destruct (FN o IO) as (A1 & A2 & A3 & A4 & A5 & A6). rewrite RES in A1, A2, A3.
  split; [|split; [|auto 10]].
  - clear -M PL IO rx env load. induction M as [|? ? ? ? [T _] ? ?]; constructor; [exact (proj1 (taken_arg flt rx env load stale d PL o _ _ IO) T)|auto].
  - intros T. clear -M T. induction M as [|? ? ? ? [_ FT] ? ?]; constructor; [exact (FT T)|auto].
Qed.
Print Assumptions C52_values_partial.

(** Of a group of options that exclude each other at most one has a value, and one has if the group is required. *)
Theorem C52_groups flt rx env load stale d fuel evs rest st0 st g :
  a_run flt rx env load stale d fuel evs rest st0 = Done st -> In g (d_groups d) -> g_exclusive g = true ->
  (forall i j, In i (g_members g) -> In j (g_members g) -> a_res st i <> VNull -> a_res st j <> VNull -> i = j) /\
  (g_required g = true -> exists i, In i (g_members g) /\ a_res st i <> VNull).
Proof.
  intros E. unfold a_run, a_all in E.
  match type of E with match ?m with _ => _ end = _ => destruct m as [[[|]| | | |] s] eqn:R; try discriminate end.
  destruct (a_print s) eqn:PR; [discriminate|]. injection E as ->.
  do 4 (apply aseq_ok in R; destruct R as (? & _ & R)). apply aseq_ok in R. destruct R as (s5 & _ & R). destruct (groups_all _ _ _ R) as [-> G]. auto.
Qed.
Print Assumptions C52_groups.

(** ** The Variant that is returned *)
Lemma vset_sorted p : forall v x v', vsorted v -> vsorted x -> vset v p x = Some v' -> vsorted v'.
Proof.
  induction p as [|e p IH]; intros v x v' SV SX E; cbn [vset] in E; [now injection E as <-|].
  match type of E with match vset ?w _ _ with _ => _ end = _ => destruct (vset w p x) as [w'|] eqn:W; [|discriminate]; change w with (vnow v e) in W end.
  assert (SW : vsorted w') by (eapply IH; [apply vnow_sorted, SV|exact SX|exact W]). exact (vset_elem_sorted _ _ _ _ SV SW E).
Qed.
Lemma form_keeps l st : forall v r p, (forall o, In o l -> vsorted (a_res st (o_id o))) -> vsorted v -> form_result l st v = Ok r ->
  (forall o, In o l -> diverge (o_path o) p) -> vat v p <> None -> vat r p = vat v p.
Proof.
  induction l as [|o l IH]; intros v r p SR SV E DV NN; cbn [form_result] in E; [now injection E as <-|].
  destruct (has_result (o_action o) && negb (is_null (a_res st (o_id o))))%bool.
  - destruct (vset v (o_path o) (a_res st (o_id o))) as [v'|] eqn:W; [|discriminate].
    assert (K : vat v' p = vat v p).
    { destruct (vat_vset_other _ _ _ _ p SV W (DV o (or_introl eq_refl))) as [K | K]; [exact K|]. exfalso. tauto. }
    rewrite <- K. apply (IH v' r p); auto with datatypes.
    + eapply vset_sorted; [exact SV| |exact W]. apply SR. now left.
    + now rewrite K.
  - apply (IH v r p); auto with datatypes.
Qed.
(** The Variant that Parse returns has the value of every option at its path, if no path leads through another. *)
Theorem C52_result_partial d st r : (forall o, In o (d_opts d) -> vsorted (a_res st (o_id o))) -> ForallOrdPairs (fun a b => diverge (o_path b) (o_path a)) (d_opts d) ->
  a_form d st = Ok r -> forall o, In o (d_opts d) -> storing (o_action o) \/ o_action o = ACount -> a_res st (o_id o) <> VNull -> vat r (o_path o) = Some (a_res st (o_id o)).
Proof.
  unfold a_form. assert (SV : vsorted (VMap [])) by (apply vsorted_map; split; constructor). revert SV. generalize (VMap []). intros v SV SR FP.
  revert v SV. induction FP as [|o l FO FP IH]; intros v SV E x IX ST NN; [destruct IX|]. cbn [form_result] in E. destruct IX as [-> | IX].
  - assert (HR : has_result (o_action x) = true) by (clear -ST; unfold storing in ST; destruct (o_action x); try reflexivity; exfalso; cbn in ST; intuition discriminate).
    apply is_null_false in NN. rewrite HR, NN in E. cbn [andb negb] in E.
    destruct (vset v (o_path x) (a_res st (o_id x))) as [v'|] eqn:W; [|discriminate].
    assert (V := vat_vset _ _ _ _ [] SV W). rewrite app_nil_r in V. cbn [vat] in V.
    rewrite <- V. apply (form_keeps l st v' r (o_path x)); auto with datatypes.
    + eapply vset_sorted; [exact SV| |exact W]. apply SR. now left.
    + rewrite Forall_forall in FO. exact FO.
    + rewrite V. discriminate.
  - destruct (has_result (o_action o) && negb (is_null (a_res st (o_id o))))%bool.
    + destruct (vset v (o_path o) (a_res st (o_id o))) as [v'|] eqn:W; [|discriminate]. apply (IH (fun y I => SR y (or_intror I)) v'); auto.
      eapply vset_sorted; [exact SV| |exact W]. apply SR. now left.
    + apply (IH (fun y I => SR y (or_intror I)) v); auto.
Qed.
Print Assumptions C52_result_partial.

(** ** Describing *)
(** The ids of the options are distinct and in order; so are their keys, and the long and short options. *)
Record well (d : adesc) : Prop := {
  w_count : 256 <= d_count d;
  w_sorted : StronglySorted N.lt (List.map o_id (d_opts d));
  w_short : forall o, In o (d_opts d) -> (o_short o = 0 /\ 256 < o_id o <= d_count d) \/ (0 < o_short o < 256 /\ o_id o = o_short o);
  w_path : forall a b, In a (d_opts d) -> In b (d_opts d) -> path_string (o_path a) = path_string (o_path b) -> a = b;
  w_long : forall a b, In a (d_opts d) -> In b (d_opts d) -> o_long a = o_long b -> o_long a <> [] -> a = b }.
Lemma insert_in o l x : ~ In (o_id o) (List.map o_id l) -> In x (insert_opt o l) <-> x = o \/ In x l.
Proof.
  induction l as [|y l IH]; intros NI; cbn [insert_opt]; [cbn; intuition|]. destruct (o_id o <? o_id y); [cbn; intuition|].
  destruct (o_id o =? o_id y) eqn:Q; [apply N.eqb_eq in Q; exfalso; apply NI; left; auto|].
  cbn [In]. rewrite IH; [intuition|intros K; apply NI; now right].
Qed.
Lemma insert_sorted o l : ~ In (o_id o) (List.map o_id l) -> StronglySorted N.lt (List.map o_id l) -> StronglySorted N.lt (List.map o_id (insert_opt o l)).
Proof.
  induction l as [|y l IH]; intros NI S; cbn [insert_opt]; [repeat constructor|]. inversion S as [|? ? S' FA]; subst.
  destruct (o_id o <? o_id y) eqn:Q.
  - apply N.ltb_lt in Q. cbn [List.map]. constructor; [exact S|]. constructor; [exact Q|]. rewrite Forall_forall in *. intros z Z. specialize (FA z Z). lia.
  - apply N.ltb_ge in Q. destruct (o_id o =? o_id y) eqn:Q2; [exact S|]. apply N.eqb_neq in Q2. cbn [List.map].
    assert (NI' : ~ In (o_id o) (List.map o_id l)) by (intros K; apply NI; now right). constructor; [auto|].
    rewrite Forall_forall in *. intros z Z. apply in_map_iff in Z. destruct Z as (x & <- & X). apply (insert_in o l x NI') in X. destruct X as [-> | X]; [lia|apply FA, in_map, X].
Qed.
Lemma beqb_iff a b : beqb a b = true <-> a = b. Proof. apply beqb_eq. Qed.
Lemma existing_ok d p short long s id c : well d -> short < 256 -> check_existing d p short long = Ok (s, id, c) ->
  (forall o, In o (d_opts d) -> path_string (o_path o) <> path_string p) /\ (long <> [] -> forall o, In o (d_opts d) -> o_long o <> long) /\
  ~ In id (List.map o_id (d_opts d)) /\ d_count d <= c /\ ((s = 0 /\ 256 < id <= c) \/ (0 < s < 256 /\ id = s)).
Proof.
  intros W LT E. unfold check_existing in E.
  destruct (existsb (fun o => beqb (path_string (o_path o)) (path_string p)) (d_opts d)) eqn:EP; [discriminate|].
  apply bind_ok in E. destruct E as (s' & ES & E).
  destruct (negb (beqb long []) && existsb (fun o => beqb (o_long o) long) (d_opts d))%bool eqn:EL; [discriminate|].
  split; [|split].
  - intros o I Q. assert (K : existsb (fun o => beqb (path_string (o_path o)) (path_string p)) (d_opts d) = true) by (apply existsb_exists; exists o; split; [auto|now apply beqb_iff]). congruence.
  - intros NL o I Q. assert (K : existsb (fun o => beqb (o_long o) long) (d_opts d) = true) by (apply existsb_exists; exists o; split; [auto|now apply beqb_iff]).
    rewrite K in EL. destruct (beqb long []) eqn:BL; [apply beqb_iff in BL; contradiction|discriminate].
  - destruct W as [WC WS WH _ _]. assert (SH : s' = 0 \/ s' = short /\ (0 < short -> forall o, In o (d_opts d) -> o_short o <> short)).
    { destruct ((0 <? short) && existsb (fun o => o_short o =? short) (d_opts d))%bool eqn:Q.
      - destruct (d_resolve d); [|discriminate]. injection ES as <-. now left.
      - injection ES as <-. right. split; [auto|]. intros P o I K. apply N.ltb_lt in P. rewrite P in Q. cbn [andb] in Q.
        assert (X : existsb (fun o => o_short o =? short) (d_opts d) = true) by (apply existsb_exists; exists o; split; [auto|now apply N.eqb_eq]). congruence. }
    destruct (0 <? s') eqn:P; injection E as <- <- <-.
    + apply N.ltb_lt in P. destruct SH as [-> | [-> SH]]; [lia|]. split; [|lia]. intros K. apply in_map_iff in K. destruct K as (o & Q & I).
      destruct (WH o I) as [[? ?] | [? ?]]; [lia|]. apply (SH P o I). congruence.
    + split; [|lia]. intros K. apply in_map_iff in K. destruct K as (o & Q & I). destruct (WH o I) as [[? ?] | [? ?]]; lia.
Qed.
Lemma insert_well d o c : well d -> d_count d <= c -> ~ In (o_id o) (List.map o_id (d_opts d)) ->
  (forall x, In x (d_opts d) -> path_string (o_path x) <> path_string (o_path o)) -> (o_long o <> [] -> forall x, In x (d_opts d) -> o_long x <> o_long o) ->
  ((o_short o = 0 /\ 256 < o_id o <= c) \/ (0 < o_short o < 256 /\ o_id o = o_short o)) ->
  forall a, well (ADesc (insert_opt o (d_opts d)) a (d_groups d) c (d_resolve d)).
Proof.
  intros [WC WS WH WP WL] LE NI NP NL SH a. constructor; cbn [d_opts d_count].
  - lia.
  - now apply insert_sorted.
  - intros x I. apply (insert_in o _ x NI) in I. destruct I as [-> | I]; [auto|]. destruct (WH x I) as [[? ?] | ?]; [left; lia|auto].
  - intros x y I J Q. apply (insert_in o _ _ NI) in I, J. destruct I as [-> | I], J as [-> | J]; auto; exfalso; [exact (NP _ J (eq_sym Q))|exact (NP _ I Q)].
  - intros x y I J Q NE. apply (insert_in o _ _ NI) in I, J. destruct I as [-> | I], J as [-> | J]; auto; exfalso; [exact (NL NE _ J (eq_sym Q))|]. rewrite Q in NE. exact (NL NE _ I Q).
Qed.
(** An option that is added is one more; those there stay, and the description stays well formed. *)
Theorem C52_add_option d keypath short long help a d' : well d -> short < 256 -> add_option d keypath short long help a = Ok d' ->
  well d' /\ d_args d' = d_args d /\ d_groups d' = d_groups d /\
  exists o p, parse_path keypath = Ok p /\ o_path o = p /\ o_long o = long /\ o_action o = a /\ (o_short o = short \/ o_short o = 0) /\
    (forall x, In x (d_opts d) -> path_string (o_path x) <> path_string p) /\ forall x, In x (d_opts d') <-> x = o \/ In x (d_opts d).
Proof.
  intros W LT E. unfold add_option in E. apply bind_ok in E. destruct E as (p & PP & E). apply bind_ok in E. destruct E as ([[s id] c] & CE & E).
  destruct (beqb long [] && (s =? 0))%bool; [discriminate|]. apply bind_ok in E. destruct E as (o & NO & E). injection E as <-.
  destruct (existing_ok _ _ _ _ _ _ _ W LT CE) as (NP & NL & NI & LE & SH).
  unfold new_opt in NO. destruct (rev p) as [|e t]; [discriminate|]. injection NO as <-. split; [|split; [auto|split; [auto|]]].
  - apply insert_well; auto.
  - match goal with |- context [insert_opt ?o _] => exists o, p end. split; [auto|]. cbn [o_path o_long o_action o_short d_opts]. do 3 (split; [reflexivity|]). split; [|split; [exact NP|]].
    + unfold check_existing in CE. destruct (existsb _ _); [discriminate|]. apply bind_ok in CE. destruct CE as (s' & ES & CE).
      assert (s' = short \/ s' = 0). { destruct (_ && _)%bool in ES; [destruct (d_resolve d); [injection ES as <-; auto|discriminate]|injection ES as <-; auto]. }
      destruct (_ && _)%bool in CE; [discriminate|]. destruct (0 <? s') eqn:P; injection CE as <- <- <-; auto.
    + intros x. now apply insert_in.
Qed.
Print Assumptions C52_add_option.
(** The same for a positional argument, which comes after those there and takes one text. *)
Lemma set_key_well id k v d : well d -> well (set_key id k v d).
Proof.
  intros [WC WS WH WP WL]. unfold set_key. set (f := fun o => if o_id o =? id then _ else o).
  assert (FI : forall o, o_id (f o) = o_id o /\ o_short (f o) = o_short o /\ o_path (f o) = o_path o /\ o_long (f o) = o_long o) by (intros o; unfold f; destruct (o_id o =? id); auto).
  constructor; cbn [d_opts d_count].
  - exact WC.
  - rewrite map_map. rewrite (map_ext _ o_id); [exact WS|]. intros o. apply FI.
  - intros o I. apply in_map_iff in I. destruct I as (x & <- & I). destruct (FI x) as (-> & -> & _ & _). auto.
  - intros x y I J. apply in_map_iff in I, J. destruct I as (x' & <- & I), J as (y' & <- & J). destruct (FI x') as (_ & _ & -> & _), (FI y') as (_ & _ & -> & _). intros Q. f_equal. auto.
  - intros x y I J. apply in_map_iff in I, J. destruct I as (x' & <- & I), J as (y' & <- & J). destruct (FI x') as (_ & _ & _ & ->), (FI y') as (_ & _ & _ & ->). intros Q N. f_equal. auto.
Qed.
Theorem C52_add_argument d keypath help a d' : well d -> add_argument d keypath help a = Ok d' ->
  well d' /\ exists o p, parse_path keypath = Ok p /\ o_path o = p /\ o_action o = a /\ In o (d_opts d') /\ ~ In (o_id o) (List.map o_id (d_opts d)) /\
    d_args d' = d_args d ++ [o_id o] /\ max_args d' (o_id o) = 1 /\ (forall x, In x (d_opts d') <-> x = o \/ In x (d_opts d)).
Proof.
  intros W E. unfold add_argument in E. apply bind_ok in E. destruct E as (p & PP & E). apply bind_ok in E. destruct E as ([[s id] c] & CE & E).
  apply bind_ok in E. destruct E as (o & NO & E). destruct (existing_ok d p 0 [] s id c W eq_refl CE) as (NP & _ & NI & LE & SH).
  assert (S0 : s = 0). { unfold check_existing in CE. destruct (existsb _ _); [discriminate|]. cbn in CE. now injection CE as <- <- <-. } subst s.
  unfold new_opt in NO. destruct (rev p) as [|e t]; [discriminate|]. injection NO as <-.
  match type of E with context [insert_opt ?o _] => set (n := o) in E end.
  assert (WI : well (ADesc (insert_opt n (d_opts d)) (d_args d ++ [id]) (d_groups d) c (d_resolve d))) by (apply insert_well; auto; cbn; congruence).
  assert (W' : well d') by (injection E as <-; now do 2 apply set_key_well). split; [exact W'|].
  set (m := AOpt id p 0 [] a NullType false (mset (s2b "maxArgs") (VInt 1) (mset (s2b "minArgs") (VInt 1) (o_opt n)))).
  assert (ALL : forall x, In x (d_opts d') <-> x = m \/ In x (d_opts d)).
  { assert (KEEP : forall y k v z, In y (d_opts d) -> (if o_id y =? id then AOpt (o_id y) (o_path y) (o_short y) (o_long y) (o_action y) (o_type y) (o_required y) (mset (s2b k) v (o_opt y)) else y) = z -> z = y).
    { intros y k v z I Q. destruct (o_id y =? id) eqn:K; [|auto]. apply N.eqb_eq in K. exfalso. apply NI. rewrite <- K. apply in_map, I. }
    injection E as <-. intros x. unfold set_key. cbn [d_opts]. rewrite map_map. split.
    - intros I. apply in_map_iff in I. destruct I as (y & Q & I). apply (insert_in n) in I; [|exact NI]. destruct I as [-> | I].
      + left. cbn [n o_id] in Q. rewrite N.eqb_refl in Q. cbn [o_id] in Q. rewrite N.eqb_refl in Q. now symmetry.
      + right. assert (I2 : o_id y =? id = false) by (apply N.eqb_neq; intros K; apply NI; rewrite <- K; apply in_map, I). rewrite I2 in Q. cbn in Q. rewrite I2 in Q. now subst.
    - intros I. apply in_map_iff. destruct I as [-> | I].
      + exists n. split; [|apply (insert_in n); auto]. cbn [n o_id]. rewrite N.eqb_refl. cbn [o_id]. rewrite N.eqb_refl. reflexivity.
      + exists x. split; [|apply (insert_in n); auto]. assert (I2 : o_id x =? id = false) by (apply N.eqb_neq; intros K; apply NI; rewrite <- K; apply in_map, I). rewrite I2. cbn. now rewrite I2. }
  exists m, p. split; [auto|]. do 2 (split; [reflexivity|]). assert (IM : In m (d_opts d')) by (apply ALL; now left). split; [exact IM|]. split; [exact NI|].
  split; [now injection E as <-|]. split; [|exact ALL].
  unfold max_args. assert (F : find_opt d' (o_id m) = Some m). { apply find_opt_in; [|exact IM]. destruct W' as [_ S _ _ _]. clear -S. induction S as [|x l S IH FA]; constructor; [|auto]. intros I. rewrite Forall_forall in FA. specialize (FA x I). lia. }
  unfold find_opt in F. rewrite F. reflexivity.
Qed.
Print Assumptions C52_add_argument.
Lemma well_new : well a_new.
Proof. constructor; cbn; try lia; try constructor; intros; contradiction. Qed.
(** So the hypothesis of C52_values_partial on the ids holds of everything that is described in this way. *)
Lemma well_ids d : well d -> NoDup (List.map o_id (d_opts d)).
Proof.
  intros [_ S _ _ _]. induction S as [|x l S IH FA]; constructor; [|auto]. intros I. rewrite Forall_forall in FA. specialize (FA x I). lia.
Qed.

(** ** Texts *)
(** An integer in decimal is read as that integer. *)
Theorem C52_integer flt stale o (neg : bool) ds z : has_arg (o_action o) = true -> o_type o = IntegerType -> ds <> [] -> forallb is_digit ds = true ->
  z = (if neg then - Z.of_N (dec_value ds) else Z.of_N (dec_value ds))%Z -> (- 2^63 <= z < 2^63 - 1)%Z ->
  parse_arg flt stale o (Some ((if neg then s2b "-" else []) ++ ds)) = Ok (VInt z).
Proof.
  intros HA TY NE DG -> B. unfold parse_arg. rewrite HA, TY.
  assert (W : whole10 ((if neg then s2b "-" else []) ++ ds) = Some (neg, dec_value ds)).
  { unfold whole10. destruct ds as [|c t]; [contradiction|].
    assert (SP : forall l, forallb is_digit l = true -> span is_digit l = (l, [])).
    { induction l as [|x l IH]; cbn; [auto|]. intros K. apply andb_true_iff in K. destruct K as [K1 K2]. now rewrite K1, (IH K2). }
    destruct neg.
    - change (skip_space (s2b "-" ++ c :: t)) with (s2b "-" ++ c :: t). cbn [s2b app]. change (take_sign _) with (true, c :: t). cbv beta iota. now rewrite (SP _ DG).
    - cbn [app]. assert (SK : skip_space (c :: t) = c :: t /\ take_sign (c :: t) = (false, c :: t)).
      { cbn in DG. apply andb_true_iff in DG. destruct DG as [D _]. clear -D. destruct c as [[] [] [] [] [] [] [] []]; try discriminate D; split; reflexivity. }
      destruct SK as [-> ->]. cbv beta iota. now rewrite (SP _ DG). }
  rewrite W. cbv zeta. match goal with |- context [(?a <? - 2^63)%Z] => replace (a <? - 2^63)%Z with false by (symmetry; apply Z.ltb_ge; apply B) end.
  match goal with |- context [(2^63 - 1 <? ?a)%Z] => replace (2^63 - 1 <? a)%Z with false by (symmetry; apply Z.ltb_ge; lia); replace (a =? 2^63 - 1)%Z with false by (symmetry; apply Z.eqb_neq; lia) end.
  reflexivity.
Qed.
Print Assumptions C52_integer.
(** What is not blanks, a sign and digits is refused for an integer, signed or not. *)
Theorem C52_integer_only flt stale o s v : has_arg (o_action o) = true -> o_type o = IntegerType \/ o_type o = UnsignedType -> parse_arg flt stale o (Some s) = Ok v ->
  exists neg ds, take_sign (skip_space s) = (neg, ds) /\ ds <> [] /\ forallb is_digit ds = true.
Proof.
  intros HA TY E. unfold parse_arg in E. rewrite HA in E.
  assert (exists r, whole10 s = Some r) as ([neg m] & W). { destruct TY as [TY | TY]; rewrite TY in E; destruct (whole10 s); (eauto || discriminate). }
  unfold whole10 in W. destruct (take_sign (skip_space s)) as [n t]. destruct (span is_digit t) as [ds r] eqn:SP. destruct ds as [|c ds]; [discriminate|]. destruct r; [|discriminate].
  exists n, t. split; [auto|]. assert (t = c :: ds /\ forallb is_digit (c :: ds) = true) as [-> D].
  { clear -SP. revert SP. generalize (c :: ds). intros l. revert l. induction t as [|x t IH]; intros l SP; cbn in SP; [injection SP as <-; auto|].
    destruct (is_digit x) eqn:DX; [|discriminate]. destruct (span is_digit t) as [a b] eqn:ST. injection SP as <- ->. destruct (IH a eq_refl) as [-> D]. cbn. now rewrite DX, D. }
  split; [discriminate|exact D].
Qed.
Print Assumptions C52_integer_only.
(** A text is stored as it is. *)
Theorem C52_text flt stale o s : has_arg (o_action o) = true -> o_type o = StringType -> parse_arg flt stale o (Some s) = Ok (VStr s).
Proof. intros HA TY. unfold parse_arg. now rewrite HA, TY. Qed.
Print Assumptions C52_text.

(** ** Cases *)
Definition no_flt : bytes -> option spec_float := fun _ => None.
Definition no_rx : bytes -> option (bytes -> bool) := fun _ => None.
Definition no_env : bytes -> option bytes := fun _ => None.
Definition no_load : aaction -> bytes -> res value := fun _ _ => Throw RuntimeError.
Definition no_stale : bytes -> bool := fun _ => false.
Definition or_new (r : res adesc) : adesc := match r with Ok d => d | _ => a_new end.
(** What the program sees: the Variant of Parse, or its exit code. *)
Definition seen (d : adesc) (o : aout) : option (res value) * N := match o with Done st => (Some (a_form d st), 0) | Exit c => (None, c) | Broken _ => (None, 99) end.
Definition chr (c : String.string) : N := match s2b c with b :: _ => bval b | [] => 0 end.
(** -v counts, -o has a text or that of the environment variable OUT, -n has numbers from 0 to 9, and there are a source and a target. *)
Definition case_d : adesc := or_new (
  do d <- add_option a_new (s2b "verbose") (chr "v") (s2b "verbose") [] ACount;
  do d <- add_option d (s2b "out/name") (chr "o") [] [] AStore;
  do d <- add_option d (s2b "out/numbers") (chr "n") [] [] AAppend;
  do d <- add_argument d (s2b "from") [] AStore;
  do d <- add_argument d (s2b "to") [] AStore;
  Ok (set_key 258 "default" (VStr (s2b "here")) (set_key (chr "o") "env" (VStr (s2b "OUT")) (set_key (chr "n") "minimum" (VInt 0) (set_key (chr "n") "maximum" (VInt 9)
    (set_fields (chr "n") AAppend IntegerType false (set_fields (chr "o") AStore StringType true d))))))).
Definition case_env (n : bytes) : option bytes := if beqb n (s2b "OUT") then Some (s2b "e") else None.
Definition case_run (evs : list gev) (rest : list bytes) : aout := a_run no_flt no_rx case_env no_load no_stale case_d 0 evs rest a_init.
Example C52_case : seen case_d (case_run [GOpt (chr "v") None; GOpt (chr "n") (Some (s2b "3")); GOpt (chr "v") None; GOpt (chr "n") (Some (s2b "5"))] [s2b "x"]) =
  (Some (Ok (VMap [(s2b "from", VStr (s2b "x")); (s2b "out", VMap [(s2b "name", VStr (s2b "e")); (s2b "numbers", VList [VInt 3; VInt 5])]); (s2b "to", VStr (s2b "here")); (s2b "verbose", VUns 2)])), 0).
Proof. vm_compute. reflexivity. Qed.
(** The hypotheses of the theorems hold of it. *)
Example C52_case_plain : plain case_d /\ NoDup (List.map o_id (d_opts case_d)) /\ List.length (d_opts case_d) = 5%nat.
Proof.
  split; [|split; [|reflexivity]].
  - intros o I. vm_compute in I. repeat (destruct I as [<- | I]; [cbn; intuition discriminate|]). destruct I.
  - vm_compute. repeat constructor; cbn; intuition discriminate.
Qed.
Example C52_case_paths : ForallOrdPairs (fun a b => diverge (o_path b) (o_path a)) (d_opts case_d).
Proof.
  assert (D : forall p q, (exists r e f p' q', p = r ++ e :: p' /\ q = r ++ f :: q' /\ e <> f) -> diverge p q) by (intros; assumption).
  vm_compute. repeat constructor; apply D.
  all: try (eexists [], _, _, _, _; split; [reflexivity|]; split; [reflexivity|discriminate]).
  all: eexists [_], _, _, _, _; split; [reflexivity|]; split; [reflexivity|discriminate].
Qed.
(** A number that is too large, an option that is not known, and too many arguments. *)
Example C52_case_refused : seen case_d (case_run [GOpt (chr "n") (Some (s2b "10"))] []) = (None, 1) /\ seen case_d (case_run [GBad] []) = (None, 0) /\
  seen case_d (case_run [] [s2b "x"; s2b "y"; s2b "z"]) = (None, 1).
Proof. vm_compute. auto. Qed.

(** ** Where the claim fails *)
Definition one (key : String.string) (short : String.string) (a : aaction) (t : vtype) : adesc :=
  set_fields (chr short) a t false (or_new (add_option a_new (s2b key) (chr short) [] [] a)).
Definition run1 (d : adesc) (env : bytes -> option bytes) (evs : list gev) : option (res value) * N :=
  seen d (a_run no_flt no_rx env no_load no_stale d 0 evs [] a_init).
(** A negative number is taken for an unsigned one, and numbers that are too large or too small become the nearest. *)
Theorem C52_unsigned_refuted : exists d s v, d = one "n" "n" AStore UnsignedType /\ s = s2b "-5" /\ v = VMap [(s2b "n", VUns (2^64 - 5))] /\ run1 d no_env [GOpt (chr "n") (Some s)] = (Some (Ok v), 0).
Proof. do 3 eexists. do 3 (split; [reflexivity|]). vm_compute. reflexivity. Qed.
Print Assumptions C52_unsigned_refuted.
Theorem C52_saturates_refuted : exists d s v, d = one "n" "n" AStore IntegerType /\ s = s2b "-9223372036854775809" /\ v = VMap [(s2b "n", VInt (- 2^63))] /\ run1 d no_env [GOpt (chr "n") (Some s)] = (Some (Ok v), 0).
Proof. do 3 eexists. do 3 (split; [reflexivity|]). vm_compute. reflexivity. Qed.
Print Assumptions C52_saturates_refuted.
(** An argument with minArgs 1 may be missing. *)
Theorem C52_argument_missing_refuted : exists d, d = or_new (add_argument a_new (s2b "file") [] AStore) /\ List.map (akey "minArgs") (d_opts d) = [Some (VInt 1)] /\ run1 d no_env [] = (Some (Ok (VMap [])), 0).
Proof. eexists. split; [reflexivity|]. vm_compute. auto. Qed.
Print Assumptions C52_argument_missing_refuted.
(** An option without an argument cannot come from the environment: the program ends with an error. *)
Theorem C52_env_flag_refuted : exists d, d = set_key (chr "q") "env" (VStr (s2b "OUT")) (one "quiet" "q" AStoreTrue NullType) /\
  run1 d no_env [GOpt (chr "q") None] = (Some (Ok (VMap [(s2b "quiet", VBool true)])), 0) /\ run1 d case_env [] = (None, 1).
Proof. eexists. split; [reflexivity|]. vm_compute. auto. Qed.
Print Assumptions C52_env_flag_refuted.
(** What is given on the command line does not replace what an option that appends has from the environment. *)
Theorem C52_env_append_refuted : exists d v, d = set_key (chr "n") "env" (VStr (s2b "OUT")) (one "n" "n" AAppend StringType) /\ v = VMap [(s2b "n", VList [VStr (s2b "e"); VStr (s2b "c")])] /\
  run1 d case_env [GOpt (chr "n") (Some (s2b "c"))] = (Some (Ok v), 0).
Proof. do 2 eexists. do 2 (split; [reflexivity|]). vm_compute. reflexivity. Qed.
Print Assumptions C52_env_append_refuted.
(** A counter counts as given: it excludes the other options of its group even if it does not occur, and it is never missing. *)
Theorem C52_count_group_refuted : exists d, d = (let d := or_new (do d <- add_option a_new (s2b "v") (chr "v") [] [] ACount; add_option d (s2b "f") (chr "f") [] [] AStore) in
    ADesc (d_opts d) (d_args d) [AGroup (s2b "g") [chr "v"; chr "f"] false true] (d_count d) false) /\ run1 d no_env [GOpt (chr "f") (Some (s2b "x"))] = (None, 1).
Proof. eexists. split; [reflexivity|]. vm_compute. reflexivity. Qed.
Print Assumptions C52_count_group_refuted.
Theorem C52_count_required_refuted : exists d, d = opt_required (chr "v") true (one "v" "v" ACount NullType) /\ run1 d no_env [] = (Some (Ok (VMap [(s2b "v", VUns 0)])), 0).
Proof. eexists. split; [reflexivity|]. vm_compute. reflexivity. Qed.
Print Assumptions C52_count_required_refuted.
(** A required option that is given as null is missing. *)
Theorem C52_null_missing_refuted : exists d, d = opt_required (chr "s") true (one "s" "s" AStore NullType) /\ run1 d no_env [GOpt (chr "s") (Some (s2b "null"))] = (None, 1) /\
  run1 d no_env [GOpt (chr "s") (Some (s2b "nul"))] = (Some (Ok (VMap [(s2b "s", VStr (s2b "nul"))])), 0).
Proof. eexists. split; [reflexivity|]. vm_compute. auto. Qed.
Print Assumptions C52_null_missing_refuted.
(** Required(false) makes an option required. *)
Theorem C52_not_required_refuted : exists d d', d = one "s" "s" AStore NullType /\ d' = opt_required (chr "s") false d /\ run1 d no_env [] = (Some (Ok (VMap [])), 0) /\ run1 d' no_env [] = (None, 1).
Proof. do 2 eexists. do 2 (split; [reflexivity|]). vm_compute. auto. Qed.
Print Assumptions C52_not_required_refuted.
(** A default need not be within what the option demands. *)
Theorem C52_default_refuted : exists d, d = set_key (chr "n") "default" (VInt 5) (set_key (chr "n") "maximum" (VInt 3) (one "n" "n" AStore IntegerType)) /\
  run1 d no_env [GOpt (chr "n") (Some (s2b "5"))] = (None, 1) /\ run1 d no_env [] = (Some (Ok (VMap [(s2b "n", VInt 5)])), 0).
Proof. eexists. split; [reflexivity|]. vm_compute. auto. Qed.
Print Assumptions C52_default_refuted.
(** A second Parse of the same parser has the values of the first. *)
Theorem C52_twice_refuted : exists d, d = one "n" "n" AStore StringType /\
  match a_run no_flt no_rx no_env no_load no_stale d 0 [GOpt (chr "n") (Some (s2b "x"))] [] a_init with
  | Done st => seen d (a_run no_flt no_rx no_env no_load no_stale d 0 [] [] st)
  | _ => (None, 99)
  end = (Some (Ok (VMap [(s2b "n", VStr (s2b "x"))])), 0).
Proof. eexists. split; [reflexivity|]. vm_compute. reflexivity. Qed.
Print Assumptions C52_twice_refuted.

(** *** Configuration files *)
Definition with_config (a : aaction) (t : vtype) : adesc :=
  set_fields (chr "n") a t false (or_new (do d <- add_option a_new (s2b "config") (chr "c") [] [] AConfig; add_option d (s2b "n") (chr "n") [] [] a)).
Definition run_config (d : adesc) (v : value) (fuel : nat) : aout :=
  a_run no_flt no_rx no_env (fun _ _ => Ok v) no_stale d fuel [GOpt (chr "c") (Some (s2b "f"))] [] a_init.
(** The type of an option is not looked at for what a configuration file gives, and what does not fit is passed over without an error. *)
Theorem C52_config_type_refuted : exists d v, d = with_config AStore IntegerType /\ v = VMap [(s2b "n", VStr (s2b "abc"))] /\ seen d (run_config d v 1) = (Some (Ok v), 0).
Proof. do 2 eexists. do 2 (split; [reflexivity|]). vm_compute. reflexivity. Qed.
Print Assumptions C52_config_type_refuted.
Theorem C52_config_silent_refuted : exists d v, d = set_key (chr "n") "maximum" (VInt 3) (with_config AStore IntegerType) /\ v = VMap [(s2b "n", VInt 5)] /\ seen d (run_config d v 1) = (Some (Ok (VMap [])), 0).
Proof. do 2 eexists. do 2 (split; [reflexivity|]). vm_compute. reflexivity. Qed.
Print Assumptions C52_config_silent_refuted.
(** A configuration file that names itself is loaded for ever. *)
Theorem C52_config_itself_refuted : exists d v, d = with_config AStore IntegerType /\ v = VMap [(s2b "config", VStr (s2b "f"))] /\ forall fuel, run_config d v fuel = Broken Fuel.
Proof.
  do 2 eexists. do 2 (split; [reflexivity|]). intros fuel. set (d := with_config AStore IntegerType). set (v := VMap _).
  assert (H : forall fuel st, fst (handle no_rx (fun _ _ => Ok v) d fuel (chr "c") (VStr (s2b "f")) st) = Fuel).
  { induction fuel0 as [|n IH]; intros st; [reflexivity|].
    change (fst (aseq (acatch (handle no_rx (fun _ _ => Ok v) d n (chr "c") (VStr (s2b "f"))) aok) aok st) = Fuel).
    unfold aseq, acatch. specialize (IH st). destruct (handle _ _ _ _ _ _ st) as [r s]. cbn [fst] in IH. now subst r. }
  unfold run_config, a_run.
  assert (K : fst (a_all no_flt no_rx no_env (fun _ _ => Ok v) no_stale d fuel [GOpt (chr "c") (Some (s2b "f"))] [] a_init) = Fuel); [|destruct (a_all _ _ _ _ _ _ _ _ _ _) as [r s]; cbn [fst] in K; now subst r].
  specialize (H fuel a_init).
  transitivity (fst (aseq (aseq (handle no_rx (fun _ _ => Ok v) d fuel (chr "c") (VStr (s2b "f"))) aok) (aseq (check_min d (d_args d)) (aseq (take_args no_flt no_rx (fun _ _ => Ok v) no_stale d fuel (d_args d) []) (aseq (aeach (a_finalize d) (d_opts d)) (aeach g_finalize (d_groups d))))) a_init)); [reflexivity|].
  unfold aseq at 1 2. destruct (handle _ _ _ _ _ _ a_init) as [r s]. cbn [fst] in H. now subst r.
Qed.
Print Assumptions C52_config_itself_refuted.
(** ** More cases *)
Example C52_add_case : well a_new /\ exists d, add_option a_new (s2b "out/name") (chr "o") (s2b "name") [] AStore = Ok d /\ List.map o_id (d_opts d) = [chr "o"] /\
  add_option d (s2b "out/name") 0 (s2b "other") [] AStore = Throw RuntimeError /\ add_option d (s2b "x") (chr "o") [] [] AStore = Throw RuntimeError.
Proof. split; [exact well_new|]. eexists. split; [vm_compute; reflexivity|]. vm_compute. auto. Qed.
Example C52_argument_case : exists d, add_argument a_new (s2b "file") [] AStore = Ok d /\ d_args d = [257].
Proof. eexists. split; vm_compute; reflexivity. Qed.
Example C52_integer_case : exists o, has_arg (o_action o) = true /\ o_type o = IntegerType /\ parse_arg no_flt no_stale o (Some (s2b "-120")) = Ok (VInt (-120)) /\
  parse_arg no_flt no_stale o (Some (s2b "12x")) = Throw RuntimeError.
Proof. exists (AOpt 1 [] 1 [] AStore IntegerType false []). vm_compute. auto. Qed.
Example C52_text_case : exists o, has_arg (o_action o) = true /\ o_type o = StringType /\ parse_arg no_flt no_stale o (Some (s2b "12x")) = Ok (VStr (s2b "12x")).
Proof. exists (AOpt 1 [] 1 [] AStore StringType false []). vm_compute. auto. Qed.
(** Two options that exclude each other, one of which has to be given. *)
Example C52_groups_case : exists d, d = (let d := or_new (do d <- add_option a_new (s2b "a") (chr "a") [] [] AStoreTrue; add_option d (s2b "b") (chr "b") [] [] AStoreTrue) in
    ADesc (d_opts d) (d_args d) [AGroup (s2b "g") [chr "a"; chr "b"] true true] (d_count d) false) /\
  run1 d no_env [GOpt (chr "a") None] = (Some (Ok (VMap [(s2b "a", VBool true)])), 0) /\ run1 d no_env [] = (None, 1) /\ run1 d no_env [GOpt (chr "a") None; GOpt (chr "b") None] = (None, 1).
Proof. eexists. split; [reflexivity|]. vm_compute. auto. Qed.
(** An option with neither a short nor a long option, which include/Variant/ArgParse.h:212-214 allows, is refused. *)
Theorem C52_hidden_refuted : exists d k, d = a_new /\ k = s2b "key" /\ add_option d k 0 [] [] AStore = Throw RuntimeError.
Proof. do 2 eexists. do 2 (split; [reflexivity|]). vm_compute. reflexivity. Qed.
Print Assumptions C52_hidden_refuted.
