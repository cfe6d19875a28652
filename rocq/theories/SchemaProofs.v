(** Validation decides the meaning of the keywords. *)
From Verif Require Import Base CNum Float FloatProofs Value Convert Numeric NumericProofs NumberSpec ParserInput Emit EventBufferProofs P_Compare P_Equal Schema SchemaSem.
From Coq Require Import SpecFloat Reals Lra.
From Flocq Require Import Core IEEE754.BinarySingleNaN Div_sqrt_error.
Open Scope N_scope.

(** ** Answers *)

(** The call goes on with nothing reported when [P] holds, and stops with an error when not. *)
Definition answers (r : res flow) (c : sctx) (P : Prop) : Prop :=
  (r = Ok (Go c) /\ P) \/ (exists c', r = Ok (Stop c') /\ failed c' = true /\ ~ P).

Lemma ans_iff r c P Q : answers r c P -> (P <-> Q) -> answers r c Q.
Proof. intros [[E H]|(c' & E & F & H)] I; [left|right; exists c']; tauto. Qed.
Lemma ans_go c (P : Prop) : P -> answers (Ok (Go c)) c P.
Proof. left. auto. Qed.
Lemma ans_err c (P : Prop) : ~ P -> answers (add_error c) c P.
Proof. right. eexists. split; [reflexivity|]. auto. Qed.
Lemma ans_next r c P k Q : answers r c P -> (P -> answers (k c) c Q) -> answers (next r k) c (P /\ Q).
Proof.
  intros [[-> H]|(c' & -> & F & H)] K; cbn [next rbind].
  - destruct (K H) as [[E Q1]|(c' & E & F & N)]; [left|right; exists c']; tauto.
  - right. exists c'. tauto.
Qed.
Lemma ans_bool c b (P : Prop) : (b = true <-> P) -> answers (if b then Ok (Go c) else add_error c) c P.
Proof. intros I. destruct b; [apply ans_go; tauto|apply ans_err]. intros H. apply I in H. discriminate. Qed.
Lemma ans_each {A} (f : A -> sctx -> res flow) (P : A -> Prop) c l :
  (forall x, In x l -> answers (f x c) c (P x)) -> answers (each f l c) c (Forall P l).
Proof.
  induction l as [|x l IH]; intros H; cbn [each]; [apply ans_go; constructor|].
  eapply ans_iff; [apply ans_next; [apply H; left; reflexivity|intros _; apply IH; intros y Y; apply H; right; exact Y]|].
  split; [intros [A1 A2]; constructor; auto|intros F; inversion F; auto].
Qed.

(** ** One value *)

Lemma v_eq_str a b : v_eq (VStr a) (VStr b) = Ok (beqb a b).
Proof.
  unfold v_eq. cbn [vcompare rbind]. f_equal. destruct (bcmp a b) eqn:E.
  - apply bcmp_eq in E. subst. now rewrite beqb_refl.
  - apply bcmp_lt_neq in E. symmetry. destruct (beqb a b) eqn:B; [|reflexivity]. apply beqb_eq in B. congruence.
  - symmetry. destruct (beqb a b) eqn:B; [|reflexivity]. apply beqb_eq in B. subst. rewrite bcmp_refl in E. discriminate.
Qed.

Lemma one_valid : is_ldouble (ld_of_Z 1) /\ f_finite (ld_of_Z 1) = true /\ SF2R radix2 (ld_of_Z 1) = 1%R.
Proof. split; [vm_compute; reflexivity|]. split; [reflexivity|]. change (ld_of_Z 1) with (S754_finite false 9223372036854775808 (-63)). unfold SF2R, F2R. cbn [cond_Zopp Fnum Fexp]. change 9223372036854775808%positive with (2^63)%positive. rewrite (Pos2Z.inj_pow 2 63). change (2^63)%Z with (Zpower radix2 63). rewrite IZR_Zpower by lia. rewrite <- bpow_plus. reflexivity. Qed.

(** fmod never rounds. *)
Lemma ld_fmod_always x y : is_ldouble x -> is_ldouble y -> f_finite x = true -> f_finite y = true -> SF2R radix2 y <> 0%R ->
  exactly (ld_fmod x y) (SF2R radix2 x - SF2R radix2 y * IZR (Ztrunc (SF2R radix2 x / SF2R radix2 y)))%R.
Proof.
  intros Vx Vy Fx Fy N.
  assert (Vf : Valid_exp (SpecFloat.fexp 64 16384)) by (apply fexp_correct, Hp64).
  assert (Mf : Monotone_exp (SpecFloat.fexp 64 16384)) by (apply fexp_monotone).
  apply ld_fmod_exact; auto.
  - rewrite (Rmult_comm (SF2R radix2 y)). apply (format_REM_ZR radix2 (SpecFloat.fexp 64 16384)); apply valid_format; assumption.
  - set (a := SF2R radix2 x) in *. set (b := SF2R radix2 y) in *.
    assert (Q : (a - b * IZR (Ztrunc (a / b)) = b * (a / b - IZR (Ztrunc (a / b))))%R) by (field; exact N).
    rewrite Q. assert (L : (Rabs (a / b - IZR (Ztrunc (a / b))) <= 1)%R).
    { pose proof (Rle_or_lt 0 (a / b)) as [P|P].
      - rewrite (Ztrunc_floor _ P). pose proof (Zfloor_lb (a / b)). pose proof (Zfloor_ub (a / b)). apply Rabs_le. lra.
      - rewrite (Ztrunc_ceil (a / b)) by lra. pose proof (Zceil_ub (a / b)). pose proof (Zceil_lb (a / b)). apply Rabs_le. lra. }
    rewrite Rabs_mult. apply Rle_lt_trans with (Rabs b * 1)%R; [apply Rmult_le_compat_l; [apply Rabs_pos|exact L]|].
    rewrite Rmult_1_r. apply (valid_bound y Vy).
Qed.

Lemma num_val_flt x : f_finite x = true -> num_val (VFlt x) = Some (Fin (SF2R radix2 x)).
Proof. destruct x; try discriminate; reflexivity. Qed.

Lemma v_eq_num a b x y : vok a -> vok b -> num_val a = Some x -> num_val b = Some y -> exists r, v_eq a b = Ok r /\ (r = true <-> x = y).
Proof.
  intros V W A B. destruct (C10_operators_partial a b x y V W A B) as (_ & _ & E & _ & _ & _ & K).
  destruct (K v_eq) as [r R]; [cbn; tauto|]. exists r. split; [exact R|]. rewrite <- E, R. split; [intros ->; reflexivity|congruence].
Qed.
Lemma v_lt_num a b x y : vok a -> vok b -> num_val a = Some x -> num_val b = Some y -> exists r, v_lt a b = Ok r /\ (r = true <-> ext_lt x y).
Proof.
  intros V W A B. destruct (C10_operators_partial a b x y V W A B) as (E & _ & _ & _ & _ & _ & K).
  destruct (K v_lt) as [r R]; [cbn; tauto|]. exists r. split; [exact R|]. rewrite <- E, R. split; [intros ->; reflexivity|congruence].
Qed.
Lemma v_gt_num a b x y : vok a -> vok b -> num_val a = Some x -> num_val b = Some y -> exists r, v_gt a b = Ok r /\ (r = true <-> ext_lt y x).
Proof.
  intros V W A B. destruct (C10_operators_partial a b x y V W A B) as (_ & E & _ & _ & _ & _ & K).
  destruct (K v_gt) as [r R]; [cbn; tauto|]. exists r. split; [exact R|]. rewrite <- E, R. split; [intros ->; reflexivity|congruence].
Qed.

Lemma float_integer x : is_ldouble x -> f_finite x = true ->
  exists r b, v_arith OpRem (VFlt x) (VInt 1) = Ok r /\ v_eq r (VInt 0) = Ok b /\ (b = true <-> exists z, num_val (VFlt x) = Some (Fin (IZR z))).
Proof.
  intros V F. destruct one_valid as (V1 & F1 & R1).
  destruct (ld_fmod_always x (ld_of_Z 1) V V1 F F1) as (Vr & Fr & Rr); [rewrite R1; lra|].
  exists (VFlt (ld_fmod x (ld_of_Z 1))).
  destruct (v_eq_num (VFlt (ld_fmod x (ld_of_Z 1))) (VInt 0) (Fin (SF2R radix2 (ld_fmod x (ld_of_Z 1)))) (Fin 0%R)) as (b & E & I);
    [exact Vr|cbn [vok]; lia|apply num_val_flt, Fr|reflexivity|].
  exists b. split; [reflexivity|]. split; [exact E|]. rewrite I, Rr, R1, (num_val_flt x F). rewrite Rmult_1_l.
  replace (SF2R radix2 x / 1)%R with (SF2R radix2 x) by field. split.
  - intros H. injection H as H. exists (Ztrunc (SF2R radix2 x)). do 2 f_equal. lra.
  - intros [z H]. injection H as H. rewrite H, Ztrunc_IZR. f_equal. lra.
Qed.

Ltac names := cbn [type_names List.map In].

Lemma type_step (all t : list value) s (d : value) c : In s type_names -> w_data d ->
  exists b, type_loop all (VStr s :: t) d c = (if b : bool then Ok (Go c) else type_loop all t d c) /\ (b = true <-> type_is s d).
Proof.
  intros I (V & P & F). cbn [type_loop]. rewrite !v_eq_str. cbn [rbind].
  assert (TI : forall (b : bool) (Q : Prop), (b = true <-> Q) -> (Q <-> type_is s d) ->
    exists b', (if b then Ok (Go c) else type_loop all t d c) = (if b' : bool then Ok (Go c) else type_loop all t d c) /\ (b' = true <-> type_is s d)).
  { intros b Q A B. exists b. split; [reflexivity|]. rewrite A. exact B. }
  Ltac one s := let H := fresh in intros H; unfold type_is in H;
    repeat match type of H with _ \/ _ => destruct H as [H|H] end; destruct H as [H K]; try discriminate H; try exact K.
  destruct I as [<-|[<-|[<-|[<-|[<-|[<-|[<-|[]]]]]]]];
    repeat match goal with |- context [beqb (s2b ?a) (s2b ?b)] => let r := eval vm_compute in (beqb (s2b a) (s2b b)) in change (beqb (s2b a) (s2b b)) with r end; cbv iota.
  - replace (match d with VList _ => Ok (Go c) | _ => type_loop all t d c end) with (if match d with VList _ => true | _ => false end then Ok (Go c) else type_loop all t d c) by (destruct d; reflexivity).
    apply (TI _ (exists l, d = VList l)).
    + destruct d; split; intros H; try discriminate; try (destruct H; discriminate); eauto.
    + split; [left; auto|one s].
  - replace (match d with VBool _ => Ok (Go c) | _ => type_loop all t d c end) with (if match d with VBool _ => true | _ => false end then Ok (Go c) else type_loop all t d c) by (destruct d; reflexivity).
    apply (TI _ (exists l, d = VBool l)).
    + destruct d; split; intros H; try discriminate; try (destruct H; discriminate); eauto.
    + split; [right; left; auto|one s].
  - assert (E : (exists z, num_val d = Some (Fin (IZR z))) <-> type_is (s2b "integer") d) by (split; [right; right; left; auto|one s]).
    destruct d as [|b|z|n|x|str|l|m|bl]; try (exists false; split; [reflexivity|]; rewrite <- E; split; [discriminate|intros [z H]; discriminate]).
    + exists true. split; [reflexivity|]. rewrite <- E. split; [intros _; exists z; reflexivity|reflexivity].
    + exists true. split; [reflexivity|]. rewrite <- E. split; [intros _; exists (Z.of_N n); reflexivity|reflexivity].
    + destruct (float_integer x V (F x eq_refl)) as (r & b & Er & Eb & Ib). rewrite Er. cbn [rbind]. rewrite Eb. cbn [rbind].
      exists b. split; [reflexivity|]. rewrite Ib. exact E.
  - replace (match d with VNull => Ok (Go c) | _ => type_loop all t d c end) with (if match d with VNull => true | _ => false end then Ok (Go c) else type_loop all t d c) by (destruct d; reflexivity).
    apply (TI _ (d = VNull)).
    + destruct d; split; intros H; try discriminate; auto.
    + split; [right; right; right; left; auto|one s].
  - apply (TI _ (exists x, num_val d = Some x)).
    + split; intros H.
      * destruct (is_num_cases d V H) as [->|H']; [|exact H']. specialize (F S754_nan eq_refl). discriminate.
      * destruct H as [x H]. apply (num_is_num d x H).
    + split; [right; right; right; right; left; auto|one s].
  - replace (match d with VMap _ => Ok (Go c) | _ => type_loop all t d c end) with (if match d with VMap _ => true | _ => false end then Ok (Go c) else type_loop all t d c) by (destruct d; reflexivity).
    apply (TI _ (exists l, d = VMap l)).
    + destruct d; split; intros H; try discriminate; try (destruct H; discriminate); eauto.
    + split; [do 5 right; left; auto|one s].
  - replace (match d with VStr _ => Ok (Go c) | _ => type_loop all t d c end) with (if match d with VStr _ => true | _ => false end then Ok (Go c) else type_loop all t d c) by (destruct d; reflexivity).
    apply (TI _ (exists l, d = VStr l)).
    + destruct d; split; intros H; try discriminate; try (destruct H; discriminate); eauto.
    + split; [do 6 right; auto|one s].
Qed.

Lemma texts_ok l : (forall x, In x l -> exists s, x = VStr s /\ In s type_names) -> texts l = Ok tt.
Proof.
  induction l as [|x l IH]; intros H; [reflexivity|]. destruct (H x (or_introl eq_refl)) as (s & -> & _). cbn [texts as_string rbind].
  apply IH. intros y Y. apply H. right. exact Y.
Qed.
Lemma type_loop_spec all d c : w_data d -> texts all = Ok tt -> forall l, (forall x, In x l -> exists s, x = VStr s /\ In s type_names) ->
  answers (type_loop all l d c) c (exists s, In (VStr s) l /\ type_is s d).
Proof.
  intros W T. induction l as [|x l IH]; intros H.
  - cbn [type_loop]. rewrite T. cbn [rbind]. apply ans_err. intros (s & [] & _).
  - destruct (H x (or_introl eq_refl)) as (s & -> & I). destruct (type_step all l s d c I W) as (b & -> & B). destruct b.
    + apply ans_go. exists s. split; [left; reflexivity|tauto].
    + eapply ans_iff; [apply IH; intros y Y; apply H; right; exact Y|]. split.
      * intros (s' & I' & T'). exists s'. split; [right|]; auto.
      * intros (s' & [I'|I'] & T'); [|eauto]. injection I' as <-. apply B in T'. discriminate.
Qed.

Lemma validate_type_spec m d c : w_data d -> w_basic m d -> answers (validate_type m d c) c (m_type m d).
Proof.
  intros W [B _]. unfold validate_type, m_type, key, kw in *. destruct (mget (s2b "type") m) as [t|]; [|apply ans_go; exact I].
  destruct (B t eq_refl) as [(s & -> & J)|(l & -> & J)].
  - eapply ans_iff; [apply type_loop_spec; [exact W|reflexivity|]|].
    + intros x [<-|[]]. eauto.
    + split; [|intros T; exists s; split; [left; reflexivity|exact T]]. intros (s' & [E|[]] & T). injection E as <-. exact T.
  - apply type_loop_spec; [exact W|apply texts_ok, J|exact J].
Qed.

(** Equality where the types allow it. *)
Lemma eq_check x y : vok x -> plain x -> vok y -> plain y ->
  exists b, (if comparable x y then v_eq x y else Ok false) = Ok b /\ (b = true <-> same x y).
Proof.
  intros V P W Q. destruct (comparable x y) eqn:C.
  - destruct (C18_equal_partial x y V W P Q) as (r & E & I). eauto.
  - exists false. split; [reflexivity|]. split; [discriminate|]. intros S. exfalso. unfold comparable in C.
    inversion S; subst; try discriminate C.
    rewrite (num_is_num x _ H), (num_is_num y _ H0) in C. rewrite Bool.orb_true_r in C. discriminate.
Qed.

Lemma enum_loop_spec d l : vok d -> plain d -> Forall (fun x => vok x /\ plain x) l ->
  exists b, enum_loop l d = Ok b /\ (b = true <-> exists x, In x l /\ same x d).
Proof.
  intros V P. induction 1 as [|x l [Vx Px] F (b & E & I)]; cbn [enum_loop].
  - exists false. split; [reflexivity|]. split; [discriminate|intros (x & [] & _)].
  - destruct (eq_check x d Vx Px V P) as (e & Ee & Ie).
    assert (Q : exists b', (if comparable x d then do e <- v_eq x d; (if (e : bool) then Ok true else enum_loop l d) else enum_loop l d) = Ok b' /\ (b' = true <-> e = true \/ b = true)).
    { destruct (comparable x d).
      - rewrite Ee. cbn [rbind]. destruct e; [exists true|exists b]; (split; [auto|]); split; auto. intros [K|K]; [discriminate|exact K].
      - injection Ee as <-. exists b. split; [auto|]. split; auto. intros [K|K]; [discriminate|exact K]. }
    destruct Q as (b' & -> & Q). exists b'. split; [reflexivity|]. rewrite Q, Ie, I. split.
    + intros [S|(z & Z & S)]; [exists x|exists z]; (split; [|exact S]); [left; reflexivity|right; exact Z].
    + intros (z & [<-|Z] & S); [left; exact S|right; eauto].
Qed.
Lemma validate_enum_spec m d c : w_data d -> w_basic m d -> answers (validate_enum m d c) c (m_enum m d).
Proof.
  intros (V & P & _) [_ B]. unfold validate_enum, m_enum, key, kw in *. destruct (mget (s2b "enum") m) as [t|]; [|apply ans_go; exact I].
  destruct (B t eq_refl) as (l & -> & F). destruct (enum_loop_spec d l V P F) as (b & -> & E). cbn [rbind]. apply ans_bool. exact E.
Qed.

(** ** Numbers *)

Lemma number_num d x : num_val d = Some x -> number d = true.
Proof. apply num_is_num. Qed.

Lemma int_multiple b d y z : vok b -> vok d -> whole b = Some y -> whole d = Some z -> (0 < y)%Z -> (0 <= z)%Z \/ (exists y', b = VInt y') ->
  exists md ne, v_arith OpRem d b = Ok md /\ v_ne md (VInt 0) = Ok ne /\ (ne = false <-> exists k, z = (k * y)%Z) /\
    match d, b with VFlt _, _ | _, VFlt _ => False | _, _ => True end.
Proof.
  intros Vb Vd Wb Wd Py S.
  assert (NE : forall md r, whole md = Some r -> vok md -> exists ne, v_ne md (VInt 0) = Ok ne /\ (ne = false <-> r = 0%Z)).
  { intros md r Wr Vr. assert (Nr : num_val md = Some (Fin (IZR r))) by (destruct md; try discriminate; injection Wr as <-; reflexivity).
    destruct (C10_operators_partial md (VInt 0) _ (Fin 0%R) Vr ltac:(cbn [vok]; lia) Nr eq_refl) as (_ & _ & _ & N & _ & _ & K).
    destruct (K v_ne) as [q Q]; [cbn; tauto|]. exists q. split; [exact Q|]. rewrite Q in N. split.
    - intros ->. destruct (Z.eq_dec r 0) as [|X]; [assumption|]. assert (Fin (IZR r) <> Fin 0%R) as Y by (intros Y; injection Y as Y; apply X, eq_IZR, Y).
      apply N in Y. discriminate.
    - intros ->. destruct q; [|reflexivity]. exfalso. apply N; reflexivity. }
  assert (DV : forall r, r = (z mod y)%Z -> (r = 0%Z <-> exists k, z = (k * y)%Z)).
  { intros r ->. split; [intros H; exists (z / y)%Z; pose proof (Z.div_mod z y ltac:(lia)); lia|intros [k ->]; apply Z.mod_mul; lia]. }
  assert (DR : Z.rem z y = 0%Z <-> exists k, z = (k * y)%Z).
  { rewrite Z.rem_divide by lia. reflexivity. }
  destruct b as [| |y'|yn| | | | |]; try discriminate; destruct d as [| |z'|zn| | | | |]; try discriminate; injection Wb as <-; injection Wd as <-; cbn [vok] in Vb, Vd.
  - unfold v_arith, numeric_operation. cbn [is_num type_of numeric_upcast rbind as_int int_op].
    replace (y' =? 0)%Z with false by lia.
    assert (Iq : in_i64 (Z.quot z' y') = true).
    { unfold in_i64. assert (Z.abs (Z.quot z' y') <= Z.abs z')%Z by (rewrite <- Z.quot_abs by lia; apply Z.quot_le_upper_bound; nia).
      assert (Z.quot z' y' <> 2^63)%Z.
      { intros E. assert (z' = - 2^63)%Z by lia. subst z'.
        assert (Z.quot (- 2^63) y' <= 0)%Z; [|lia]. rewrite Z.quot_opp_l by lia. pose proof (Z.quot_pos (2^63) y' ltac:(lia) Py). lia. }
      lia. }
    rewrite Iq. cbn [rbind]. destruct (NE (VInt (Z.rem z' y')) (Z.rem z' y') eq_refl) as (ne & E & N).
    { cbn [vok]. pose proof (Z.rem_bound_abs z' y' ltac:(lia)). lia. }
    exists (VInt (Z.rem z' y')), ne. split; [reflexivity|]. split; [exact E|]. split; [rewrite N; exact DR|exact I].
  - unfold v_arith, numeric_operation. cbn [is_num type_of numeric_upcast rbind as_uns uns_op].
    assert (TU : to_u64 y' = Z.to_N y') by (unfold to_u64; rewrite Z.mod_small by lia; reflexivity). rewrite TU.
    replace (Z.to_N y' =? 0) with false by lia. cbn [rbind].
    destruct (NE (VUns (zn mod Z.to_N y')) (Z.of_N (zn mod Z.to_N y')) eq_refl) as (ne & E & N).
    { cbn [vok]. pose proof (N.mod_lt zn (Z.to_N y') ltac:(lia)). lia. }
    exists (VUns (zn mod Z.to_N y')), ne. split; [reflexivity|]. split; [exact E|]. split; [|exact I]. rewrite N. apply DV.
    rewrite N2Z.inj_mod, Z2N.id by lia. reflexivity.
  - destruct S as [S|[y' K]]; [|discriminate]. unfold v_arith, numeric_operation. cbn [is_num type_of numeric_upcast rbind as_uns uns_op].
    assert (TU : to_u64 z' = Z.to_N z') by (unfold to_u64; rewrite Z.mod_small by lia; reflexivity). rewrite TU.
    replace (yn =? 0) with false by lia. cbn [rbind].
    destruct (NE (VUns (Z.to_N z' mod yn)) (Z.of_N (Z.to_N z' mod yn)) eq_refl) as (ne & E & N).
    { cbn [vok]. pose proof (N.mod_lt (Z.to_N z') yn ltac:(lia)). lia. }
    exists (VUns (Z.to_N z' mod yn)), ne. split; [reflexivity|]. split; [exact E|]. split; [|exact I]. rewrite N. apply DV.
    rewrite N2Z.inj_mod, Z2N.id by lia. reflexivity.
  - unfold v_arith, numeric_operation. cbn [is_num type_of numeric_upcast rbind as_uns uns_op].
    replace (yn =? 0) with false by lia. cbn [rbind].
    destruct (NE (VUns (zn mod yn)) (Z.of_N (zn mod yn)) eq_refl) as (ne & E & N).
    { cbn [vok]. pose proof (N.mod_lt zn yn ltac:(lia)). lia. }
    exists (VUns (zn mod yn)), ne. split; [reflexivity|]. split; [exact E|]. split; [|exact I]. rewrite N. apply DV.
    rewrite N2Z.inj_mod. reflexivity.
Qed.

Lemma m_multiple_int m d b y z : kw "multipleOf" m = Some b -> whole b = Some y -> whole d = Some z ->
  ((exists k, z = (k * y)%Z) <-> m_multiple m d).
Proof.
  intros K Wb Wd. unfold m_multiple. rewrite K.
  assert (Nb : num_val b = Some (Fin (IZR y))) by (destruct b; try discriminate; injection Wb as <-; reflexivity).
  assert (Nd : num_val d = Some (Fin (IZR z))) by (destruct d; try discriminate; injection Wd as <-; reflexivity).
  split.
  - intros [k ->] b' x' y' [= <-] D B. rewrite Nd in D. rewrite Nb in B. injection D as <-. injection B as <-. exists k. apply mult_IZR.
  - intros H. destruct (H b _ _ eq_refl Nd Nb) as [k E]. rewrite <- mult_IZR in E. apply eq_IZR in E. eauto.
Qed.
Lemma validate_multiple_spec m d c x : vok d -> num_val d = Some x -> w_numeric m d -> answers (validate_multiple m d c) c (m_multiple m d).
Proof.
  intros V N W. destruct (W x N) as (Dv & M & _). unfold validate_multiple, key.
  change (mget (s2b "multipleOf") m) with (kw "multipleOf" m). change (mget (s2b "divisibleBy") m) with (kw "divisibleBy" m). rewrite Dv.
  destruct (kw "multipleOf" m) as [b|] eqn:K.
  - destruct (M b eq_refl) as (Vb & y & z & Wb & Wd & Py & S).
    assert (Nb : num_val b = Some (Fin (IZR y))) by (destruct b; try discriminate; injection Wb as <-; reflexivity).
    rewrite (number_num b _ Nb). destruct (v_lt_num b (VInt 0) _ (Fin 0%R) Vb ltac:(cbn [vok]; lia) Nb eq_refl) as (r & -> & R). cbn [rbind].
    destruct r. { exfalso. assert (IZR y < 0)%R by (apply R; reflexivity). apply lt_IZR in H. lia. }
    destruct (int_multiple b d y z Vb V Wb Wd Py S) as (md & ne & E1 & E2 & I & T). rewrite E1. cbn [rbind].
    replace (match d, b with VFlt _, _ | _, VFlt _ => _ | _, _ => _ end) with (do ne <- v_ne md (VInt 0); (if (ne : bool) then add_error c else Ok (Go c)))
      by (destruct b; try discriminate; destruct d; try discriminate; reflexivity).
    rewrite E2. cbn [rbind]. pose proof (m_multiple_int m d b y z K Wb Wd) as MI.
    destruct ne; [apply ans_err; intros X; apply MI, I in X; discriminate|apply ans_go, MI, I; reflexivity].
  - apply ans_go. intros b ? ? E. rewrite K in E. discriminate.
Qed.

Lemma excl_flag m k : w_flag m k -> exists b, match key k m with Some e => as_bool e | None => Ok false end = Ok b /\ (b = true <-> kw k m = Some (VBool true)).
Proof.
  intros W. unfold key. change (mget (s2b k) m) with (kw k m). destruct (kw k m) as [e|] eqn:K.
  - destruct (W e K) as [x ->]. exists x. split; [reflexivity|]. split; [intros ->; reflexivity|congruence].
  - exists false. split; [reflexivity|]. split; discriminate.
Qed.

Lemma minimum_spec m d c x : vok d -> num_val d = Some x -> w_number m "minimum" -> w_flag m "exclusiveMinimum" ->
  answers (validate_bound "minimum" "exclusiveMinimum" v_lt m d c) c (m_minimum m d).
Proof.
  intros V N W F. unfold validate_bound, m_minimum. change (key "minimum" m) with (kw "minimum" m). destruct (kw "minimum" m) as [b|] eqn:K.
  - destruct (W b K) as (Vb & y & Nb). rewrite (number_num b y Nb).
    destruct (v_lt_num d b x y V Vb N Nb) as (r & -> & R). cbn [rbind]. pose proof (ext_trichotomy x y) as T. pose proof (ext_lt_irrefl x) as Ix.
    assert (Q : forall P : Prop, (x = y /\ kw "exclusiveMinimum" m <> Some (VBool true) \/ ext_lt y x <-> P) ->
      ((forall b' x' y', Some b = Some b' -> num_val d = Some x' -> num_val b' = Some y' -> x' = y' /\ kw "exclusiveMinimum" m <> Some (VBool true) \/ ext_lt y' x') <-> P)).
    { intros P I. rewrite <- I. split; [intros H; apply (H b x y); auto|]. intros H b' x' y' [= <-] A B. rewrite N in A. rewrite Nb in B. injection A as <-. injection B as <-. exact H. }
    destruct r.
    + apply ans_err. rewrite (Q _ (iff_refl _)). assert (L : ext_lt x y) by tauto. intros [[-> _]|H]; [tauto|]. exact (Ix (ext_lt_trans x y x L H)).
    + destruct (excl_flag m "exclusiveMinimum" F) as (e & -> & E). cbn [rbind]. destruct (v_eq_num d b x y V Vb N Nb) as (q & Eq & I).
      destruct e.
      * rewrite Eq. cbn [rbind]. destruct q; [apply ans_err|apply ans_go]; rewrite (Q _ (iff_refl _)).
        -- assert (x = y) by tauto. subst y. tauto.
        -- right. destruct T as [T|[T|T]]; [apply R in T; discriminate|apply I in T; discriminate|exact T].
      * apply ans_go. rewrite (Q _ (iff_refl _)). destruct T as [T|[T|T]]; [apply R in T; discriminate| |right; exact T].
        left. split; [exact T|]. intros H. apply E in H. discriminate.
  - apply ans_go. discriminate.
Qed.
Lemma maximum_spec m d c x : vok d -> num_val d = Some x -> w_number m "maximum" -> w_flag m "exclusiveMaximum" ->
  answers (validate_bound "maximum" "exclusiveMaximum" v_gt m d c) c (m_maximum m d).
Proof.
  intros V N W F. unfold validate_bound, m_maximum. change (key "maximum" m) with (kw "maximum" m). destruct (kw "maximum" m) as [b|] eqn:K.
  - destruct (W b K) as (Vb & y & Nb). rewrite (number_num b y Nb).
    destruct (v_gt_num d b x y V Vb N Nb) as (r & -> & R). cbn [rbind]. pose proof (ext_trichotomy x y) as T. pose proof (ext_lt_irrefl x) as Ix.
    assert (Q : forall P : Prop, (x = y /\ kw "exclusiveMaximum" m <> Some (VBool true) \/ ext_lt x y <-> P) ->
      ((forall b' x' y', Some b = Some b' -> num_val d = Some x' -> num_val b' = Some y' -> x' = y' /\ kw "exclusiveMaximum" m <> Some (VBool true) \/ ext_lt x' y') <-> P)).
    { intros P I. rewrite <- I. split; [intros H; apply (H b x y); auto|]. intros H b' x' y' [= <-] A B. rewrite N in A. rewrite Nb in B. injection A as <-. injection B as <-. exact H. }
    destruct r.
    + apply ans_err. rewrite (Q _ (iff_refl _)). assert (L : ext_lt y x) by tauto. intros [[-> _]|H]; [tauto|]. exact (Ix (ext_lt_trans x y x H L)).
    + destruct (excl_flag m "exclusiveMaximum" F) as (e & -> & E). cbn [rbind]. destruct (v_eq_num d b x y V Vb N Nb) as (q & Eq & I).
      destruct e.
      * rewrite Eq. cbn [rbind]. destruct q; [apply ans_err|apply ans_go]; rewrite (Q _ (iff_refl _)).
        -- assert (x = y) by tauto. subst y. tauto.
        -- right. destruct T as [T|[T|T]]; [exact T|apply I in T; discriminate|apply R in T; discriminate].
      * apply ans_go. rewrite (Q _ (iff_refl _)). destruct T as [T|[T|T]]; [right; exact T| |apply R in T; discriminate].
        left. split; [exact T|]. intros H. apply E in H. discriminate.
  - apply ans_go. discriminate.
Qed.

Lemma validate_numeric_spec m d c : w_data d -> w_numeric m d -> answers (validate_numeric m d c) c (m_multiple m d /\ m_minimum m d /\ m_maximum m d).
Proof.
  intros (V & P & F) W. unfold validate_numeric. destruct (number d) eqn:N.
  - destruct (is_num_cases d V N) as [->|[x X]]; [specialize (F S754_nan eq_refl); discriminate|].
    pose proof (W x X) as (_ & _ & W1 & W2 & W3 & W4).
    apply ans_next; [apply (validate_multiple_spec m d c x V X W)|intros _]. unfold validate_minmax.
    apply ans_next; [apply (minimum_spec m d c x V X W1 W3)|intros _]. apply (maximum_spec m d c x V X W2 W4).
  - apply ans_go. assert (forall x, num_val d <> Some x) as K by (intros x X; rewrite (number_num d x X) in N; discriminate).
    unfold m_multiple, m_minimum, m_maximum. repeat split; intros b x y _ X; destruct (K _ X).
Qed.

(** ** Sizes *)

Lemma count_uns b n : vok b -> count_of b = Some n -> number b = true /\ as_uns b = Ok n.
Proof.
  destruct b as [| |z|k| | | | |]; try discriminate; cbn [count_of vok].
  - intros V. destruct (Z.leb_spec 0 z); [|discriminate]. intros [= <-]. split; [reflexivity|]. cbn [as_uns]. unfold to_u64. rewrite Z.mod_small by lia. reflexivity.
  - intros _ [= <-]. split; reflexivity.
Qed.
Lemma validate_size_spec lo hi size m c : w_count m lo -> w_count m hi -> answers (validate_size lo hi size m c) c (m_size m lo hi size).
Proof.
  intros L H. unfold validate_size, m_size. apply ans_next.
  - change (key lo m) with (kw lo m). destruct (kw lo m) as [b|] eqn:K; [|apply ans_go; discriminate].
    destruct (L b K) as [V C]. destruct (count_of b) as [n|] eqn:Cn; [|congruence]. destruct (count_uns b n V Cn) as [-> ->]. cbn [rbind].
    destruct (N.ltb_spec size n).
    + apply ans_err. intros Q. specialize (Q b n eq_refl Cn). lia.
    + apply ans_go. intros b' n' [= <-] Cn'. rewrite Cn in Cn'. injection Cn' as <-. lia.
  - intros _. change (key hi m) with (kw hi m). destruct (kw hi m) as [b|] eqn:K; [|apply ans_go; discriminate].
    destruct (H b K) as [V C]. destruct (count_of b) as [n|] eqn:Cn; [|congruence]. destruct (count_uns b n V Cn) as [-> ->]. cbn [rbind].
    destruct (N.ltb_spec n size).
    + apply ans_err. intros Q. specialize (Q b n eq_refl Cn). lia.
    + apply ans_go. intros b' n' [= <-] Cn'. rewrite Cn in Cn'. injection Cn' as <-. lia.
Qed.
Lemma m_size_absent m lo hi n n' : kw lo m = None -> kw hi m = None -> (m_size m lo hi n <-> m_size m lo hi n').
Proof. unfold m_size. intros -> ->. split; intros _; split; discriminate. Qed.

Lemma chars_ascii s : ascii_only s -> chars s = llen s.
Proof.
  unfold chars. induction 1 as [|c s H F IH]; [reflexivity|]. cbn [List.filter]. replace (128 <=? bval c) with false by lia. cbn [andb negb].
  unfold llen in *. cbn [List.length]. lia.
Qed.

Lemma small32 {A} (l : list A) : llen l < 2^32 -> wrap32 (llen l) = llen l.
Proof. intros H. unfold wrap32. apply N.mod_small. exact H. Qed.
Lemma counted_all {A} (l : list A) : llen l < 2^32 -> counted l = l.
Proof. intros H. unfold counted, take. rewrite (small32 l H). unfold llen. rewrite Nnat.Nat2N.id. apply firstn_all. Qed.

Section Spec.
  Variable rx : bytes -> option (bytes -> bool).
  Variable get_schema : bytes -> res value.

  Lemma validate_string_spec m d c : w_string rx m d -> answers (validate_string rx m d c) c (m_string rx m d).
  Proof.
    intros W. unfold validate_string, m_string. destruct d; try (apply ans_go; intros ? [=]).
    destruct (W s eq_refl) as (L & W1 & W2 & A & Wp & Wf).
    assert (Q : forall P : Prop, (P <-> (forall s0, VStr s = VStr s0 -> P)) ) by (intros P; split; [auto|intros H; apply (H s); reflexivity]).
    eapply ans_iff with (P := m_size m "minLength" "maxLength" (llen s) /\ ((forall p f, kw "pattern" m = Some (VStr p) -> rx p = Some f -> f s = true) /\ True)).
    - apply ans_next; [rewrite (small32 s L); apply validate_size_spec; auto|intros _]. apply ans_next; [|intros _].
      + unfold validate_pattern. change (key "pattern" m) with (kw "pattern" m). destruct (kw "pattern" m) as [b|] eqn:K; [|apply ans_go; discriminate].
        destruct (Wp b eq_refl) as (p & -> & Np & Ns & R). rewrite (c_str_id p Np), (c_str_id s Ns). destruct (rx p) as [f|] eqn:E; [|congruence].
        apply ans_bool. split; [intros T p' f' [= <-]; congruence|]. intros T. apply (T p f); auto.
      + unfold validate_format. change (key "format" m) with (kw "format" m). destruct (kw "format" m) as [b|] eqn:K; [|apply ans_go; exact I].
        destruct b; try (apply ans_go; exact I). specialize (Wf _ eq_refl). cbn [List.map In] in Wf.
        assert (B : forall k, s2b k = s0 \/ False -> beqb s0 (s2b k) = true) by (intros k [<-|[]]; apply beqb_refl).
        assert (Z : forall k, s2b k <> s0 -> beqb s0 (s2b k) = false).
        { intros k Nk. destruct (beqb s0 (s2b k)) eqn:Be; [|reflexivity]. apply beqb_eq in Be. congruence. }
        rewrite !Z by (intros X; apply Wf; rewrite X; tauto). apply ans_go. exact I.
    - assert (MS : m_size m "minLength" "maxLength" (llen s) <-> m_size m "minLength" "maxLength" (chars s)).
      { destruct (kw "minLength" m) as [lo|] eqn:Kl.
        - rewrite (chars_ascii s); [reflexivity|]. apply A. left. discriminate.
        - destruct (kw "maxLength" m) as [hi|] eqn:Kh; [|apply m_size_absent; assumption].
          rewrite (chars_ascii s); [reflexivity|]. apply A. right. discriminate. }
      rewrite MS. split; [intros (H1 & H2 & _) s0 [= <-]; auto|]. intros H. destruct (H s eq_refl). auto.
  Qed.

  Lemma unique_spec l : Forall (fun x => vok x /\ plain x) l -> exists b, unique l = Ok b /\ (b = true <-> pairwise (fun x y => ~ same x y) l).
  Proof.
    induction 1 as [|x l [V P] F (b & E & I)]; cbn [unique pairwise]; [exists true; split; [reflexivity|tauto]|].
    assert (R : exists r, unique_row x l = Ok r /\ (r = true <-> Forall (fun y => ~ same x y) l)).
    { clear E I. induction F as [|y l [Vy Py] F (r & E & I)]; cbn [unique_row]; [exists true; split; [reflexivity|]; split; auto|].
      destruct (eq_check x y V P Vy Py) as (e & Ee & Ie).
      assert (Q : exists q, (if comparable x y then do e <- v_eq x y; (if (e : bool) then Ok false else unique_row x l) else unique_row x l) = Ok q /\ (q = true <-> e = false /\ r = true)).
      { destruct (comparable x y).
        - rewrite Ee. cbn [rbind]. destruct e; [exists false|exists r]; (split; [auto|]); split; try tauto; try discriminate. intros [K _]. discriminate.
        - injection Ee as <-. exists r. split; [auto|]. tauto. }
      destruct Q as (q & -> & Q). exists q. split; [reflexivity|]. rewrite Q, I. split.
      - intros [K G]. constructor; [|exact G]. intros S. apply Ie in S. congruence.
      - intros G. inversion G as [|? ? G1 G2]; subst. split; [|exact G2]. destruct e; [|reflexivity]. exfalso. apply G1, Ie. reflexivity. }
    destruct R as (r & -> & R). cbn [rbind]. destruct r.
    - exists b. split; [exact E|]. rewrite I. tauto.
    - exists false. split; [reflexivity|]. split; [discriminate|]. intros [K _]. apply R in K. discriminate.
  Qed.

  Section Sub.
    Variable sub : value -> value -> sctx -> res flow.
    Variable U H : value -> value -> Prop.
    Hypothesis SUB : forall s d c, U s d -> answers (sub s d c) c (H s d).

    Lemma additional_spec m k x c : w_additional U m k x ->
      answers (match key k m with None => Ok (Go c) | Some (VBool true) => Ok (Go c) | Some (VBool false) => add_error c | Some s => sub s x c end) c (additional H m k x).
    Proof.
      intros W. unfold additional. unfold w_additional in W. change (key k m) with (kw k m). destruct (kw k m) as [s|]; [|apply ans_go; exact I].
      destruct (W s eq_refl) as [K|[b ->]]; [|destruct b; [apply ans_go; reflexivity|apply ans_err; discriminate]].
      destruct s as [|b| | | | | | |]; try (apply SUB; exact K). destruct b; [apply ans_go; reflexivity|apply ans_err; discriminate].
    Qed.

    Lemma items_loop_spec m c : forall l ss,
      (forall i x, nth_error l i = Some x -> match nth_error ss i with Some s => U s x | None => w_additional U m "additionalItems" x end) ->
      answers (items_loop sub m ss l c) c (forall i x, nth_error l i = Some x -> match nth_error ss i with Some s => H s x | None => additional H m "additionalItems" x end).
    Proof.
      induction l as [|x l IH]; intros ss W.
      - destruct ss; cbn [items_loop]; apply ans_go; intros [|i] y; discriminate.
      - destruct ss as [|s ss]; cbn [items_loop].
        + eapply ans_iff; [apply ans_next; [apply additional_spec; exact (W 0%nat x eq_refl)|intros _; apply IH; intros i y; specialize (W (S i) y); destruct i; exact W]|].
          split.
          * intros [A B] [|i] y Y; [injection Y as <-; exact A|]. specialize (B i y Y). destruct i; exact B.
          * intros A. split; [exact (A 0%nat x eq_refl)|]. intros i y Y. specialize (A (S i) y Y). destruct i; exact A.
        + eapply ans_iff; [apply ans_next; [apply SUB; exact (W 0%nat x eq_refl)|intros _; apply IH; intros i y; exact (W (S i) y)]|].
          split.
          * intros [A B] [|i] y Y; [injection Y as <-; exact A|]. exact (B i y Y).
          * intros A. split; [exact (A 0%nat x eq_refl)|]. intros i y Y. exact (A (S i) y Y).
    Qed.

    Lemma validate_array_spec m d c : w_data d -> w_array U m d -> answers (validate_array sub m d c) c (m_array H m d).
    Proof.
      intros (V & P & _) W. unfold validate_array, m_array. destruct d; try (apply ans_go; intros ? [=]).
      destruct (W l eq_refl) as (L & W1 & W2 & Wu & Wi).
      eapply ans_iff with (P := m_size m "minItems" "maxItems" (llen l) /\ ((kw "uniqueItems" m = Some (VBool true) -> pairwise (fun x y => ~ same x y) l) /\ m_items H m l)).
      2:{ split; [intros K l0 [= <-]; exact K|intros K; exact (K l eq_refl)]. }
      apply ans_next; [rewrite (small32 l L); apply validate_size_spec; auto|intros _]. apply ans_next; [|intros _].
      - unfold validate_unique. change (key "uniqueItems" m) with (kw "uniqueItems" m). destruct (kw "uniqueItems" m) as [b|] eqn:K; [|apply ans_go; discriminate].
        destruct (Wu b K) as [[|] ->]; [|apply ans_go; discriminate]. rewrite (counted_all l L).
        destruct (unique_spec l) as (u & -> & Iu).
        { apply Forall_forall. intros x X. split; [|exact (proj1 (Forall_forall _ _) (plain_list_inv l P) x X)].
          cbn [vok] in V. clear - V X. induction l as [|y l IH]; [destruct X|]. destruct V as [V1 V2]. destruct X as [<-|X]; auto. }
        cbn [rbind]. apply ans_bool. rewrite Iu. tauto.
      - unfold validate_items, m_items. change (key "items" m) with (kw "items" m). destruct (kw "items" m) as [b|] eqn:K; [|apply ans_go; exact I].
        specialize (Wi b eq_refl). destruct b; cbv iota in Wi |- *; try (rewrite (counted_all l L); apply ans_each; intros y Y; apply SUB; rewrite Forall_forall in Wi; exact (Wi y Y)).
        destruct Wi as [Ls Wi]. rewrite (counted_all l L), (counted_all l0 Ls). apply items_loop_spec. exact Wi.
    Qed.

    (** *** Objects *)

    Lemma In_mget fs k (x : value) : msorted fs -> (In (k, x) fs <-> mget k fs = Some x).
    Proof.
      intros S. split.
      - revert S. induction fs as [|[k' y] fs IH]; intros S I; [destruct I|]. destruct S as [S1 S2]. cbn [mget]. destruct I as [E|I].
        + injection E as -> ->. rewrite beqb_refl. reflexivity.
        + destruct (beqb k k') eqn:B; [|auto]. apply beqb_eq in B. subst k'. exfalso.
          assert (K : In k (mkeys fs)) by (apply in_map_iff; exists (k, x); auto). specialize (S1 k K). rewrite bcmp_refl in S1. discriminate.
      - clear S. induction fs as [|[k' y] fs IH]; [discriminate|]. cbn [mget]. destruct (beqb k k') eqn:B; [|right; auto].
        apply beqb_eq in B. subst k'. intros [= <-]. left. reflexivity.
    Qed.

    Lemma need_spec fs k c : answers (need fs k c) c (mget k fs <> None).
    Proof. unfold need. destruct (mget k fs); [apply ans_go; discriminate|apply ans_err; tauto]. Qed.

    Lemma required_spec m fs c : (forall b, kw "required" m = Some b -> exists l, b = VList l /\ forall x, In x l -> exists k, x = VStr k) ->
      answers (validate_required m fs c) c (forall l k, kw "required" m = Some (VList l) -> In (VStr k) l -> mget k fs <> None).
    Proof.
      intros W. unfold validate_required. change (key "required" m) with (kw "required" m). destruct (kw "required" m) as [b|] eqn:K; [|apply ans_go; discriminate].
      destruct (W b eq_refl) as (l & -> & S).
      eapply ans_iff; [apply (ans_each _ (fun x => forall k, x = VStr k -> mget k fs <> None))|].
      - intros x X. destruct (S x X) as [k ->]. eapply ans_iff; [apply need_spec|]. split; [intros Q k0 [= <-]; exact Q|intros Q; apply Q; reflexivity].
      - rewrite Forall_forall. split; [intros Q l' k [= <-] I; exact (Q _ I k eq_refl)|intros Q x X k ->; exact (Q l k eq_refl X)].
    Qed.

    Lemma dependencies_spec m fs c :
      (forall b, kw "dependencies" m = Some b -> exists deps, b = VMap deps /\ msorted deps /\ forall k dep, mget k deps = Some dep ->
        match dep with VList l => llen l < 2^32 /\ (forall x, In x l -> exists k', x = VStr k') | VMap _ => U dep (VMap fs) | _ => False end) ->
      answers (validate_dependencies sub m fs c) c
        (forall deps k dep, kw "dependencies" m = Some (VMap deps) -> mget k deps = Some dep -> mget k fs <> None ->
           match dep with VList l => forall k', In (VStr k') l -> mget k' fs <> None | s => H s (VMap fs) end).
    Proof.
      intros W. unfold validate_dependencies. change (key "dependencies" m) with (kw "dependencies" m). destruct (kw "dependencies" m) as [b|] eqn:K; [|apply ans_go; discriminate].
      destruct (W b eq_refl) as (deps & -> & S & D).
      eapply ans_iff; [apply (ans_each _ (fun kv => mget (fst kv) fs <> None -> match snd kv with VList l => forall k', In (VStr k') l -> mget k' fs <> None | s => H s (VMap fs) end))|].
      - intros [k dep] I. cbn [fst snd]. apply (In_mget deps k dep S) in I. specialize (D k dep I).
        destruct (mget k fs) eqn:G; [|apply ans_go; tauto].
        destruct dep as [| | | | | |l|dm|]; try (destruct D; fail).
        + destruct D as [L D]. rewrite (counted_all l L).
          eapply ans_iff; [apply (ans_each _ (fun x => forall k, x = VStr k -> mget k fs <> None))|].
          * intros x X. destruct (D x X) as [k' ->]. cbn [as_string rbind]. eapply ans_iff; [apply need_spec|]. split; [intros Q k0 [= <-]; exact Q|intros Q; apply Q; reflexivity].
          * rewrite Forall_forall. split; [intros Q _ k' I'; exact (Q _ I' k' eq_refl)|intros Q x X k' ->; apply Q; [discriminate|exact X]].
        + eapply ans_iff; [apply SUB; exact D|]. split; [auto|intros Q; apply Q; discriminate].
      - rewrite Forall_forall. split.
        + intros Q deps' k dep [= <-] G. apply (In_mget deps k dep S) in G. specialize (Q (k, dep) G). destruct dep; exact Q.
        + intros Q [k dep] I. apply (In_mget deps k dep S) in I. specialize (Q deps k dep eq_refl I). destruct dep; exact Q.
    Qed.

    Lemma compile_spec l : (forall p s, In (p, s) l -> nul_free p /\ rx p <> None) ->
      exists ps, compile rx l = (false, ps) /\ forall f s, In (f, s) ps <-> exists p, In (p, s) l /\ rx p = Some f.
    Proof.
      induction l as [|[p s] l IH]; intros W; cbn [compile].
      - exists []. split; [reflexivity|]. intros f s. split; [intros []|intros (p & [] & _)].
      - destruct IH as (ps & -> & I); [intros q t Q; apply (W q t); right; exact Q|].
        destruct (W p s (or_introl eq_refl)) as [Np Rp]. rewrite (c_str_id p Np). destruct (rx p) as [f|] eqn:R; [|congruence].
        exists ((f, s) :: ps). split; [reflexivity|]. intros g t. cbn [In]. rewrite I. split.
        + intros [E|(q & Q & Rq)]; [injection E as -> ->; exists p; auto|exists q; auto].
        + intros (q & [E|Q] & Rq); [injection E as -> ->; left; congruence|right; eauto].
    Qed.

    Lemma properties_spec m fs c : msorted fs ->
      (forall b, kw "properties" m = Some b -> exists ps, b = VMap ps) ->
      (forall b, kw "patternProperties" m = Some b -> (forall k, In k (mkeys fs) -> nul_free k) /\ exists ps, b = VMap ps /\ forall p s, In (p, s) ps -> nul_free p /\ rx p <> None) ->
      (forall k x, mget k fs = Some x -> (forall s, named_schema m k s -> U s x) /\ (forall s, matching_schema rx m k s -> U s x) /\ w_additional U m "additionalProperties" x) ->
      answers (validate_properties rx sub m fs c) c
        (forall k x, mget k fs = Some x -> (forall s, named_schema m k s -> H s x) /\ (forall s, matching_schema rx m k s -> H s x) /\
           ((forall s, ~ named_schema m k s) -> (forall s, ~ matching_schema rx m k s) -> additional H m "additionalProperties" x)).
    Proof.
      intros S Wn Wp W. unfold validate_properties.
      assert (A : exists ps, match key "patternProperties" m with None => (false, []) | Some (VMap l) => compile rx l | Some _ => (true, []) end = (false, ps) /\
        forall k, In k (mkeys fs) -> forall s, (exists f, In (f, s) ps /\ f (c_str k) = true) <-> matching_schema rx m k s).
      { unfold matching_schema. change (key "patternProperties" m) with (kw "patternProperties" m). destruct (kw "patternProperties" m) as [b|] eqn:K.
        - destruct (Wp b eq_refl) as (Nk & l & -> & Wl). destruct (compile_spec l Wl) as (ps & -> & I). exists ps. split; [reflexivity|].
          intros k Ik s. rewrite (c_str_id k (Nk k Ik)). split.
          + intros (f & F & T). apply I in F as (p & Ip & R). exists l, p, f. auto.
          + intros (l' & p & f & [= <-] & Ip & R & T). exists f. split; [apply I; eauto|exact T].
        - exists []. split; [reflexivity|]. intros k _ s. split; [intros (f & [] & _)|intros (l' & p & f & [=] & _)]. }
      destruct A as (ps & -> & A).
      assert (B : exists props, match key "properties" m with None => (false, []) | Some (VMap l) => (false, l) | Some _ => (true, []) end = (false, props) /\
        forall k s, mget k props = Some s <-> named_schema m k s).
      { unfold named_schema. change (key "properties" m) with (kw "properties" m). destruct (kw "properties" m) as [b|] eqn:K.
        - destruct (Wn b eq_refl) as (l & ->). exists l. split; [reflexivity|]. intros k s. split; [intros G; exists l; auto|intros (l' & [= <-] & G); exact G].
        - exists []. split; [reflexivity|]. intros k s. split; [discriminate|intros (l' & [=] & _)]. }
      destruct B as (props & -> & B).
      replace (SCtx (c_err c) (c_serr c || false || false)) with c by (destruct c; cbn; rewrite !Bool.orb_false_r; reflexivity).
      eapply ans_iff; [apply (ans_each _ (fun kv => (forall s, named_schema m (fst kv) s -> H s (snd kv)) /\ ((forall s, matching_schema rx m (fst kv) s -> H s (snd kv)) /\
           ((forall s, ~ named_schema m (fst kv) s) -> (forall s, ~ matching_schema rx m (fst kv) s) -> additional H m "additionalProperties" (snd kv)))))|].
      - intros [k x] I. cbn [fst snd]. assert (Ik : In k (mkeys fs)) by (apply in_map_iff; exists (k, x); auto).
        apply (In_mget fs k x S) in I. destruct (W k x I) as (W1 & W2 & W3). specialize (A k Ik). specialize (B k).
        set (matching := List.filter (fun p => fst p (c_str k)) ps).
        assert (M : forall s, (exists f, In (f, s) matching) <-> matching_schema rx m k s).
        { intros s. rewrite <- A. unfold matching. split; intros (f & F); exists f; rewrite filter_In in *; auto. }
        apply ans_next; [|intros _; apply ans_next; [|intros _]].
        + destruct (mget k props) as [s|] eqn:G.
          * eapply ans_iff; [apply SUB, W1, B; reflexivity|]. split; [|intros Q; apply Q, B; reflexivity].
            intros Q s' E. apply B in E. injection E as <-. exact Q.
          * apply ans_go. intros s E. apply B in E. discriminate.
        + eapply ans_iff; [apply (ans_each _ (fun p => H (snd p) x))|].
          * intros [f s] F. cbn [snd]. apply SUB, W2, M. eauto.
          * rewrite Forall_forall. split; [intros Q s E; apply M in E as [f F]; exact (Q (f, s) F)|intros Q [f s] F; apply Q, M; eauto].
        + destruct (mget k props) as [s|] eqn:G.
          * apply ans_go. intros N. exfalso. apply (N s), B. reflexivity.
          * destruct matching as [|[f s] t].
            -- eapply ans_iff; [apply additional_spec; exact W3|]. split; [auto|]. intros Q. apply Q.
               ++ intros s E. apply B in E. discriminate.
               ++ intros s E. apply M in E as [f []].
            -- apply ans_go. intros _ N. exfalso. apply (N s), M. exists f. left. reflexivity.
      - rewrite Forall_forall. split.
        + intros Q k x G. apply (In_mget fs k x S) in G. exact (Q (k, x) G).
        + intros Q [k x] I. apply (In_mget fs k x S) in I. exact (Q k x I).
    Qed.

    Lemma validate_object_spec m d c : w_data d -> w_object rx U m d -> answers (validate_object rx sub m d c) c (m_object rx H m d).
    Proof.
      intros (V & P & _) W. unfold validate_object, m_object. destruct d as [| | | | | | |fs|]; try (apply ans_go; intros ? [=]).
      destruct (W fs eq_refl) as (L & W1 & W2 & Wr & Wn & Wp & We & Wd). destruct V as [S _].
      eapply ans_iff; [apply ans_next; [rewrite (small32 fs L); apply validate_size_spec; [exact W1|exact W2]|intros _; apply ans_next; [apply required_spec; exact Wr|intros _;
        apply ans_next; [apply properties_spec; assumption|intros _; apply dependencies_spec; exact Wd]]]|].
      split; [intros Q fs' [= <-]; exact Q|intros Q; exact (Q fs eq_refl)].
    Qed.

    (** *** Combinations *)

    Lemma any_spec l d c : Forall (fun s => U s d) l -> answers (any_loop sub l d c) c (Exists (fun s => H s d) l).
    Proof.
      induction 1 as [|s l Us F IH]; cbn [any_loop]; [apply ans_err; intros Q; inversion Q|].
      destruct (SUB s d no_errors Us) as [[-> Q]|(c' & -> & _ & Q)]; cbn [rbind].
      - apply ans_go. left. exact Q.
      - eapply ans_iff; [exact IH|]. split; [right; auto|]. intros E. inversion E; subst; [contradiction|assumption].
    Qed.
    Lemma one_spec1 l d c : Forall (fun s => U s d) l -> answers (one_loop sub l 1 d c) c (Forall (fun s => ~ H s d) l).
    Proof.
      induction 1 as [|s l Us F IH]; cbn [one_loop]; [apply ans_go; constructor|].
      destruct (SUB s d no_errors Us) as [[-> Q]|(c' & -> & _ & Q)]; cbn [rbind].
      - apply ans_err. intros E. inversion E. contradiction.
      - change (1 <? 1) with false. cbv iota. eapply ans_iff; [exact IH|]. split; [constructor; auto|]. intros E. inversion E; assumption.
    Qed.
    Lemma one_spec l d c : Forall (fun s => U s d) l -> answers (one_loop sub l 0 d c) c
      (exists l1 s l2, l = l1 ++ s :: l2 /\ H s d /\ Forall (fun s => ~ H s d) (l1 ++ l2)).
    Proof.
      induction 1 as [|s l Us F IH]; cbn [one_loop].
      - apply ans_err. intros (l1 & s & l2 & E & _). destruct l1; discriminate.
      - destruct (SUB s d no_errors Us) as [[-> Q]|(c' & -> & _ & Q)]; cbn [rbind].
        + change (failed no_errors) with false. cbv iota. change (wrap32 (0 + 1)) with 1. change (1 <? 1) with false. cbv iota.
          eapply ans_iff; [apply one_spec1; exact F|]. split.
          * intros N. exists [], s, l. auto.
          * intros (l1 & t & l2 & E & T & N). destruct l1 as [|a l1]; injection E as -> ->; [exact N|].
            inversion N; contradiction.
        + change (1 <? 0) with false. cbv iota. eapply ans_iff; [exact IH|]. split.
          * intros (l1 & t & l2 & -> & T & N). exists (s :: l1), t, l2. split; [reflexivity|]. split; [exact T|constructor; auto].
          * intros (l1 & t & l2 & E & T & N). destruct l1 as [|a l1]; injection E as -> ->; [contradiction|].
            inversion N; subst. exists l1, t, l2. auto.
    Qed.
    Lemma validate_combinations_spec m d c : w_combinations U m d -> answers (validate_combinations sub m d c) c (m_combinations H m d).
    Proof.
      intros (Wa & Wy & Wo & Wn). unfold validate_combinations, m_combinations. apply ans_next; [|intros _; apply ans_next; [|intros _; apply ans_next; [|intros _]]].
      - unfold validate_all. change (key "allOf" m) with (kw "allOf" m). destruct (kw "allOf" m) as [b|] eqn:K; [|apply ans_go; discriminate].
        destruct (Wa b K) as (l & -> & F). eapply ans_iff; [apply (ans_each _ (fun s => H s d)); intros s I; apply SUB; rewrite Forall_forall in F; auto|].
        split; [intros Q l' [= <-]; exact Q|intros Q; exact (Q l eq_refl)].
      - unfold validate_any. change (key "anyOf" m) with (kw "anyOf" m). destruct (kw "anyOf" m) as [b|] eqn:K; [|apply ans_go; discriminate].
        destruct (Wy b K) as (l & -> & F). eapply ans_iff; [apply any_spec; exact F|]. split; [intros Q l' [= <-]; exact Q|intros Q; exact (Q l eq_refl)].
      - unfold validate_one. change (key "oneOf" m) with (kw "oneOf" m). destruct (kw "oneOf" m) as [b|] eqn:K; [|apply ans_go; discriminate].
        destruct (Wo b K) as (l & -> & F). eapply ans_iff; [apply one_spec; exact F|]. split; [intros Q l' [= <-]; exact Q|intros Q; exact (Q l eq_refl)].
      - unfold validate_not. change (key "not" m) with (kw "not" m). destruct (kw "not" m) as [s|] eqn:K; [|apply ans_go; discriminate].
        destruct (SUB s d no_errors (Wn s eq_refl)) as [[-> Q]|(c' & -> & _ & Q)]; cbn [rbind].
        + change (failed no_errors) with false. cbv iota. apply ans_err. intros N. exact (N s eq_refl Q).
        + apply ans_go. intros s' [= <-]. exact Q.
    Qed.

    (** *** A whole schema *)

    Lemma each_go {A} (f : A -> sctx -> res flow) l c : (forall x c, f x c = Ok (Go c)) -> each f l c = Ok (Go c).
    Proof. intros E. induction l; cbn [each]; [reflexivity|]. rewrite E. exact IHl. Qed.

    Lemma absent_go m d c : absent m keywords ->
      next (validate_type m d c) (fun c => next (validate_enum m d c) (fun c => next (validate_numeric m d c) (fun c =>
      next (validate_string rx m d c) (fun c => next (validate_array sub m d c) (fun c => next (validate_object rx sub m d c) (validate_combinations sub m d)))))) = Ok (Go c).
    Proof.
      intros A. assert (K : forall k, In k keywords -> key k m = None) by (intros k I; apply A, I).
      unfold validate_type. rewrite (K "type"%string) by (cbn; tauto). cbn [next rbind].
      unfold validate_enum. rewrite (K "enum"%string) by (cbn; tauto). cbn [next rbind].
      assert (E1 : validate_numeric m d c = Ok (Go c)).
      { unfold validate_numeric. destruct (number d); [|reflexivity]. unfold validate_multiple, validate_minmax, validate_bound.
        rewrite (K "multipleOf"%string), (K "divisibleBy"%string), (K "minimum"%string), (K "maximum"%string) by (cbn; tauto). reflexivity. }
      rewrite E1. cbn [next rbind].
      assert (E2 : validate_string rx m d c = Ok (Go c)).
      { unfold validate_string. destruct d; try reflexivity. unfold validate_size, validate_pattern, validate_format.
        rewrite (K "minLength"%string), (K "maxLength"%string), (K "pattern"%string), (K "format"%string) by (cbn; tauto). reflexivity. }
      rewrite E2. cbn [next rbind].
      assert (E3 : validate_array sub m d c = Ok (Go c)).
      { unfold validate_array. destruct d; try reflexivity. unfold validate_size, validate_unique, validate_items.
        rewrite (K "minItems"%string), (K "maxItems"%string), (K "uniqueItems"%string), (K "items"%string) by (cbn; tauto). reflexivity. }
      rewrite E3. cbn [next rbind].
      assert (E4 : validate_object rx sub m d c = Ok (Go c)).
      { unfold validate_object. destruct d as [| | | | | | |fs|]; try reflexivity. unfold validate_size, validate_required, validate_properties, validate_dependencies.
        rewrite (K "minProperties"%string), (K "maxProperties"%string), (K "required"%string), (K "patternProperties"%string), (K "properties"%string), (K "dependencies"%string) by (cbn; tauto).
        cbn [next rbind]. rewrite each_go.
        - cbn [next rbind]. destruct c; cbn. rewrite !Bool.orb_false_r. reflexivity.
        - intros x c0. cbn [mget List.filter next rbind each]. rewrite (K "additionalProperties"%string) by (cbn; tauto). reflexivity. }
      rewrite E4. cbn [next rbind]. unfold validate_combinations, validate_all, validate_any, validate_one, validate_not.
      rewrite (K "allOf"%string), (K "anyOf"%string), (K "oneOf"%string), (K "not"%string) by (cbn; tauto). reflexivity.
    Qed.

    Lemma validate_map_spec m d c : usable_map rx get_schema U m d -> answers (validate_map rx get_schema sub m d c) c (meets rx get_schema H m d).
    Proof.
      intros [D W]. unfold validate_map, meets. change (key "$ref" m) with (kw "$ref" m).
      destruct (kw "$ref" m) as [b|] eqn:K.
      - destruct b; try (destruct W; fail). destruct W as (A & s1 & G & Us). rewrite G. cbn [rbind].
        eapply ans_iff; [apply (ans_next _ _ (H s1 d) _ True); [apply SUB; exact Us|intros _; rewrite absent_go by exact A; apply ans_go; exact I]|].
        split; [intros [Q _]; eauto|]. intros (s' & E & Q). injection E as <-. auto.
      - destruct W as (Wb & Wn & Ws & Wa & Wo & Wc). cbn [next rbind].
        eapply ans_iff; [apply ans_next; [apply validate_type_spec; assumption|intros _; apply ans_next; [apply validate_enum_spec; assumption|intros _;
          apply ans_next; [apply validate_numeric_spec; assumption|intros _; apply ans_next; [apply validate_string_spec; assumption|intros _;
          apply ans_next; [apply validate_array_spec; assumption|intros _; apply ans_next; [apply validate_object_spec; assumption|intros _; apply validate_combinations_spec; assumption]]]]]]|].
        tauto.
    Qed.
  End Sub.

  Theorem validate_spec H : means_schemas rx get_schema H -> forall n s d fuel depth c,
    usable rx get_schema n s d -> (n <= fuel)%nat -> depth + N.of_nat n <= RECURSION_LIMIT ->
    answers (validate rx get_schema fuel depth s d c) c (H s d).
  Proof.
    intros M. induction n as [|n IH]; intros s d fuel depth c W F L; [destruct W|].
    destruct fuel as [|fuel]; [lia|]. cbn [validate]. replace (RECURSION_LIMIT <? depth + 1) with false by lia.
    specialize (M (Datatypes.S n) s d W). destruct s as [| | | | | | |m|]; try (apply ans_go; exact M).
    eapply ans_iff; [|symmetry; exact M]. apply validate_map_spec with (U := usable rx get_schema n).
    - intros s' d' c' W'. apply IH; [exact W'|lia|lia].
    - exact W.
  Qed.
End Spec.
