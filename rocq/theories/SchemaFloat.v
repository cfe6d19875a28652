(** "multipleOf" with fractions (src/Schema.cc:691-729). *)
From Verif Require Import Base Float FloatProofs Value Numeric NumberSpec NumericProofs P_Compare P_Arith P_Equal Schema SchemaSem SchemaProofs.
From Coq Require Import Reals Lra Lia SpecFloat.
From Flocq Require Import Core IEEE754.BinarySingleNaN.
Open Scope R_scope.

Notation rnd := (round radix2 (SpecFloat.fexp 64 16384) ZnearestE).

Lemma ld_round_near s m e : Rabs (rnd (fval s m e)) < bpow radix2 16384 ->
  is_ldouble (ld_round s m e) /\ SF2R radix2 (ld_round s m e) = rnd (fval s m e) /\ f_finite (ld_round s m e) = true.
Proof.
  intros Ab. unfold ld_round.
  pose proof (binary_round_correct 64 16384 Hp64 Hm64 mode_NE s m e) as K. cbv zeta in K.
  fold (fval s m e) in K. cbn [round_mode] in K.
  rewrite Rlt_bool_true in K by exact Ab. destruct K as (V & R & F & S).
  split; [exact V|]. split; [exact R|].
  destruct (binary_round 64 16384 mode_NE s m e); try discriminate; reflexivity.
Qed.

Local Instance vexp : Valid_exp (SpecFloat.fexp 64 16384) := fexp_correct 64 16384 Hp64.

Lemma ld_scale_near s0 z e : Rabs (rnd (F2R (Float radix2 z e))) < bpow radix2 16384 ->
  is_ldouble (ld_scale s0 z e) /\ SF2R radix2 (ld_scale s0 z e) = rnd (F2R (Float radix2 z e)) /\ f_finite (ld_scale s0 z e) = true.
Proof.
  intros B. destruct z as [|p|p]; cbn [ld_scale].
  - rewrite F2R_0, round_0 by (auto with typeclass_instances). repeat split.
  - exact (ld_round_near false p e B).
  - exact (ld_round_near true p e B).
Qed.

Lemma ld_add_near x y : is_ldouble x -> is_ldouble y -> f_finite x = true -> f_finite y = true ->
  Rabs (rnd (SF2R radix2 x + SF2R radix2 y)) < bpow radix2 16384 ->
  exactly (ld_add x y) (rnd (SF2R radix2 x + SF2R radix2 y)).
Proof.
  intros Vx Vy Fx Fy B. unfold exactly.
  assert (G : forall v, is_ldouble v -> rnd (SF2R radix2 v) = SF2R radix2 v).
  { intros v V. apply round_generic; [auto with typeclass_instances|apply valid_format; exact V]. }
  destruct x as [sx|sx| |sx mx ex], y as [sy|sy| |sy my ey]; try discriminate; cbn [ld_add].
  - cbn [SF2R]. rewrite Rplus_0_l, round_0 by (auto with typeclass_instances). destruct (Bool.eqb sx sy); repeat split.
  - split; [exact Vy|]. split; [reflexivity|]. change (SF2R radix2 (S754_zero sx)) with 0. rewrite Rplus_0_l. symmetry. apply G, Vy.
  - split; [exact Vx|]. split; [reflexivity|]. change (SF2R radix2 (S754_zero sy)) with 0. rewrite Rplus_0_r. symmetry. apply G, Vx.
  - cbv zeta. set (e := Z.min ex ey) in *.
    assert (E : F2R (Float radix2 (at_exp sx mx ex e + at_exp sy my ey e) e) = fval sx mx ex + fval sy my ey).
    { rewrite <- (at_exp_val sx mx ex e), <- (at_exp_val sy my ey e) by (unfold e; lia).
      unfold F2R. cbn [Fnum Fexp]. rewrite plus_IZR. lra. }
    change (SF2R radix2 (S754_finite sx mx ex)) with (fval sx mx ex) in *.
    change (SF2R radix2 (S754_finite sy my ey)) with (fval sy my ey) in *.
    rewrite <- E in *. destruct (ld_scale_near false _ _ B) as (V & R & F). auto.
Qed.

Lemma f_gt_real x y : is_ldouble x -> is_ldouble y -> f_finite x = true -> f_finite y = true ->
  (f_gt x y = true <-> SF2R radix2 y < SF2R radix2 x).
Proof.
  intros Vx Vy Fx Fy. pose proof (ld_order_finite x y Vx Vy Fx Fy) as K. unfold ld_order in K. unfold f_gt.
  destruct (Rcompare_spec (SF2R radix2 x) (SF2R radix2 y)); destruct (SFcompare x y) as [[]|]; try discriminate K; split; intros; try discriminate; try lra; reflexivity.
Qed.
Lemma f_abs_val x : SF2R radix2 (f_abs x) = Rabs (SF2R radix2 x).
Proof.
  destruct x as [s|s| |s m e]; cbn [f_abs SF2R]; try (rewrite Rabs_R0; reflexivity). rewrite <- F2R_Zabs. destruct s; reflexivity.
Qed.
Lemma f_abs_valid x : is_ldouble x -> is_ldouble (f_abs x). Proof. destruct x; auto. Qed.
Lemma f_abs_finite x : f_finite (f_abs x) = f_finite x. Proof. destruct x; reflexivity. Qed.

Lemma tolerance_real : is_ldouble tolerance /\ f_finite tolerance = true /\ bpow radix2 (-57) < SF2R radix2 tolerance < bpow radix2 (-56).
Proof.
  assert (E : tolerance = S754_finite false 14411518807585587200 (-120)) by (vm_compute; reflexivity). rewrite E.
  split; [vm_compute; reflexivity|]. split; [reflexivity|]. unfold SF2R, F2R. cbn [cond_Zopp Fnum Fexp]. split.
  - replace (-57)%Z with (63 + -120)%Z by reflexivity. rewrite bpow_plus. apply Rmult_lt_compat_r; [apply bpow_gt_0|].
    rewrite <- IZR_Zpower by lia. apply IZR_lt. reflexivity.
  - replace (-56)%Z with (64 + -120)%Z by reflexivity. rewrite bpow_plus. apply Rmult_lt_compat_r; [apply bpow_gt_0|].
    rewrite <- IZR_Zpower by lia. apply IZR_lt. reflexivity.
Qed.

Section Float.
  Variables (m : list (bytes * value)) (b d : value) (x y : R) (c : sctx).
  Hypothesis K : kw "multipleOf" m = Some b.
  Hypothesis Vb : vok b.
  Hypothesis Vd : vok d.
  Hypothesis Nb : num_val b = Some (Fin y).
  Hypothesis Nd : num_val d = Some (Fin x).
  Hypothesis Y : 0 < y.
  Hypothesis F : (exists f, b = VFlt f) \/ (exists f, d = VFlt f).

  Let r : R := x - y * IZR (Ztrunc (x / y)).

  (** The remainder is exact; what is compared with the tolerance. *)
  Lemma float_multiple : exists r' q',
    exactly r' r /\ is_ldouble q' /\ (0 <= r <= y -> exactly q' (rnd (r - y))) /\
    validate_multiple m d c = (if (f_gt r' tolerance && f_gt (f_abs q') tolerance)%bool then add_error c else Ok (Go c)).
  Proof.
    destruct (as_ld_num b _ Vb Nb) as (lb & Eb & Vlb & Hb). destruct (as_ld_num d _ Vd Nd) as (ld & Ed & Vld & Hd).
    cbn in Hb, Hd. destruct Hb as [Fb Rb], Hd as [Fd Rd].
    exists (ld_fmod ld lb), (ld_sub (ld_fmod ld lb) lb).
    assert (EX : exactly (ld_fmod ld lb) r).
    { unfold r. rewrite <- Rb, <- Rd. apply ld_fmod_always; auto. rewrite Rb. lra. }
    split; [exact EX|]. destruct EX as (Vr & Fr & Rr).
    split; [|split].
    - unfold ld_sub. assert (Vn : is_ldouble (ld_neg lb)) by (apply ld_neg_valid; exact Vlb).
      destruct (ld_fmod ld lb) as [s1|s1| |s1 m1 e1]; destruct (ld_neg lb) as [s2|s2| |s2 m2 e2]; cbn [ld_add]; try discriminate Fr; try exact Vn; try exact Vr; try reflexivity.
      + destruct (Bool.eqb s1 s2); reflexivity.
      + cbv zeta. unfold ld_scale. destruct (at_exp _ _ _ _ + at_exp _ _ _ _)%Z; [reflexivity|apply ld_round_valid|apply ld_round_valid].
    - intros L. unfold ld_sub.
      assert (Ry : SF2R radix2 (ld_neg lb) = - y) by (rewrite ld_neg_val, Rb; reflexivity).
      replace (r - y) with (SF2R radix2 (ld_fmod ld lb) + SF2R radix2 (ld_neg lb)) by (rewrite Rr, Ry; lra).
      apply ld_add_near; [exact Vr|apply ld_neg_valid; exact Vlb|exact Fr|rewrite ld_neg_finite; exact Fb|].
      rewrite Rr, Ry. assert (RN : rnd (r + - y) <= 0).
      { replace 0 with (rnd 0) by (apply round_0; auto with typeclass_instances). apply round_le; auto with typeclass_instances. lra. }
      assert (RM : - y <= rnd (r + - y)).
      { replace (- y) with (rnd (- y)) at 1; [apply round_le; auto with typeclass_instances; lra|].
        apply round_generic; [auto with typeclass_instances|]. rewrite <- Ry. apply valid_format, ld_neg_valid, Vlb. }
      assert (BB : Rabs y < bpow radix2 16384) by (rewrite <- Rb; apply valid_bound; exact Vlb).
      rewrite Rabs_pos_eq in BB by lra. apply Rabs_def1; lra.
    - unfold validate_multiple. change (key "multipleOf" m) with (kw "multipleOf" m). rewrite K. rewrite (number_num b _ Nb).
      destruct (v_lt_num b (VInt 0) (Fin y) (Fin 0) Vb) as (t & -> & E); [cbn; lia|exact Nb|reflexivity|]. cbn [rbind].
      destruct t. { exfalso. assert (L : ext_lt (Fin y) (Fin 0)) by (apply E; reflexivity). cbn in L. lra. }
      assert (A : v_arith OpRem d b = Ok (VFlt (ld_fmod ld lb))).
      { unfold v_arith. rewrite (num_is_num d _ Nd). unfold numeric_operation.
        assert (T : numeric_upcast (type_of d) (type_of b) = Ok FloatType).
        { destruct F as [[f ->]|[f ->]]; [destruct d; try discriminate Nd|destruct b; try discriminate Nb]; reflexivity. }
        rewrite T. cbn [rbind]. rewrite Ed, Eb. reflexivity. }
      rewrite A. cbn [rbind]. 
      assert (B : forall (k1 k2 : res flow), match d, b with VFlt _, _ | _, VFlt _ => k1 | _, _ => k2 end = k1).
      { intros. destruct F as [[f ->]|[f ->]]; [destruct d|]; reflexivity. }
      rewrite B. cbn [as_ld rbind]. rewrite Eb. reflexivity.
  Qed.

  Lemma trunc_pos : 0 <= x -> 0 <= r < y.
  Proof.
    intros P. unfold r. assert (Q : 0 <= x / y) by (apply Rmult_le_pos; [lra|left; apply Rinv_0_lt_compat; lra]).
    rewrite Ztrunc_floor by exact Q. pose proof (Zfloor_lb (x / y)) as L1. pose proof (Zfloor_ub (x / y)) as L2.
    assert (X : x = y * (x / y)) by (field; lra). split.
    - apply Rle_trans with (x - y * (x / y)); [lra|]. apply Rplus_le_compat_l, Ropp_le_contravar, Rmult_le_compat_l; lra.
    - apply Rlt_le_trans with (x - y * (x / y - 1)); [|lra]. apply Rplus_lt_compat_l, Ropp_lt_contravar, Rmult_lt_compat_l; lra.
  Qed.

  Lemma exact_multiple k : x = IZR k * y -> validate_multiple m d c = Ok (Go c).
  Proof.
    intros X. destruct float_multiple as (r' & q' & (Vr & Fr & Rr) & Vq & _ & ->).
    assert (R0 : r = 0). { unfold r. rewrite X. replace (IZR k * y / y) with (IZR k) by (field; lra). rewrite Ztrunc_IZR. lra. }
    destruct tolerance_real as (Vt & Ft & T). pose proof (bpow_gt_0 radix2 (-57)) as T0. destruct (f_gt r' tolerance) eqn:G; [|reflexivity].
    apply f_gt_real in G; auto. lra.
  Qed.

  Lemma negative_multiple : x <= 0 -> validate_multiple m d c = Ok (Go c).
  Proof.
    intros X. destruct float_multiple as (r' & q' & (Vr & Fr & Rr) & Vq & _ & ->).
    assert (R0 : r <= 0).
    { unfold r. assert (Q : x / y <= 0). { apply Rmult_le_reg_r with y; [lra|]. replace (x / y * y) with x by (field; lra). lra. }
      rewrite Ztrunc_ceil by exact Q. pose proof (Zceil_ub (x / y)) as L. assert (E : x = y * (x / y)) by (field; lra).
      apply Rle_trans with (x - y * (x / y)); [|lra]. apply Rplus_le_compat_l, Ropp_le_contravar, Rmult_le_compat_l; lra. }
    destruct tolerance_real as (Vt & Ft & T). pose proof (bpow_gt_0 radix2 (-57)) as T0. destruct (f_gt r' tolerance) eqn:G; [|reflexivity].
    apply f_gt_real in G; auto. lra.
  Qed.

  Lemma far_multiple : 0 <= x -> (forall k, bpow radix2 (-56) <= Rabs (x - IZR k * y)) -> validate_multiple m d c = add_error c.
  Proof.
    intros X D. destruct (trunc_pos X) as [R1 R2]. destruct float_multiple as (r' & q' & (Vr & Fr & Rr) & Vq & EQ & ->).
    destruct EQ as (_ & Fq & Rq); [lra|]. destruct tolerance_real as (Vt & Ft & T). pose proof (bpow_gt_0 radix2 (-57)) as T0.
    assert (G1 : f_gt r' tolerance = true).
    { apply f_gt_real; auto. rewrite Rr. specialize (D (Ztrunc (x / y))). replace (x - IZR (Ztrunc (x / y)) * y) with r in D by (unfold r; lra).
      rewrite Rabs_pos_eq in D by lra. lra. }
    assert (G2 : f_gt (f_abs q') tolerance = true).
    { apply f_gt_real; auto; [apply f_abs_valid; exact Vq|rewrite f_abs_finite; exact Fq|]. rewrite f_abs_val, Rq.
      specialize (D (Ztrunc (x / y) + 1)%Z). rewrite plus_IZR in D. replace (x - (IZR (Ztrunc (x / y)) + 1) * y) with (r - y) in D by (unfold r; lra).
      rewrite Rabs_left1 in D by lra.
      assert (L : rnd (r - y) <= - bpow radix2 (-56)).
      { replace (- bpow radix2 (-56)) with (rnd (- bpow radix2 (-56))); [apply round_le; auto with typeclass_instances; lra|].
        apply round_generic; [auto with typeclass_instances|]. apply generic_format_opp, generic_format_bpow. vm_compute. discriminate. }
      rewrite Rabs_left1; lra. }
    rewrite G1, G2. reflexivity.
  Qed.
  Lemma near_multiple k : 0 <= x -> Rabs (x - IZR k * y) <= bpow radix2 (-57) -> validate_multiple m d c = Ok (Go c).
  Proof.
    intros X D. destruct (trunc_pos X) as [R1 R2]. destruct float_multiple as (r' & q' & (Vr & Fr & Rr) & Vq & EQ & ->).
    destruct EQ as (_ & Fq & Rq); [lra|]. destruct tolerance_real as (Vt & Ft & T). pose proof (bpow_gt_0 radix2 (-57)) as T0.
    assert (B : bpow radix2 (-57) * 2 = bpow radix2 (-56)) by (change 2 with (bpow radix2 1); rewrite <- bpow_plus; reflexivity).
    destruct (f_gt r' tolerance) eqn:G1; [|reflexivity]. destruct (f_gt (f_abs q') tolerance) eqn:G2; [exfalso|reflexivity].
    apply f_gt_real in G1; auto. apply f_gt_real in G2; auto; [|apply f_abs_valid; exact Vq|rewrite f_abs_finite; exact Fq]. rewrite Rr in G1. rewrite f_abs_val, Rq in G2.
    apply Rabs_le_inv in D. set (t := Ztrunc (x / y)) in *. assert (E : r = x - IZR t * y) by (unfold r; fold t; lra).
    destruct (Z_le_gt_dec k t) as [L|L].
    - apply IZR_le in L. assert (IZR k * y <= IZR t * y) by (apply Rmult_le_compat_r; lra). lra.
    - assert (L' : (t + 1 <= k)%Z) by lia. apply IZR_le in L'. rewrite plus_IZR in L'. assert (Q : (IZR t + 1) * y <= IZR k * y) by (apply Rmult_le_compat_r; lra).
      assert (N : - bpow radix2 (-57) <= rnd (r - y) <= 0).
      { split.
        - replace (- bpow radix2 (-57)) with (rnd (- bpow radix2 (-57))); [apply round_le; auto with typeclass_instances; lra|].
          apply round_generic; [auto with typeclass_instances|]. apply generic_format_opp, generic_format_bpow. vm_compute. discriminate.
        - replace 0 with (rnd 0) by (apply round_0; auto with typeclass_instances). apply round_le; auto with typeclass_instances. lra. }
      rewrite Rabs_left1 in G2; lra.
  Qed.
End Float.
