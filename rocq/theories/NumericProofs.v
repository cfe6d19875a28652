(** Facts about long double arithmetic and comparison used by P_Numeric.v. *)
From Verif Require Import Base Float FloatProofs Numeric.
From Coq Require Import Reals Lra Lia SpecFloat.
From Flocq Require Import Core IEEE754.BinarySingleNaN.
Open Scope R_scope.

Definition ldformat : R -> Prop := generic_format radix2 (SpecFloat.fexp 64 16384).

Lemma ld_round_exact s m e : ldformat (fval s m e) -> Rabs (fval s m e) < bpow radix2 16384 ->
  is_ldouble (ld_round s m e) /\ SF2R radix2 (ld_round s m e) = fval s m e /\
  f_finite (ld_round s m e) = true /\ sign_SF (ld_round s m e) = s.
Proof.
  intros G Ab. unfold ld_round.
  pose proof (binary_round_correct 64 16384 Hp64 Hm64 mode_NE s m e) as K. cbv zeta in K.
  fold (fval s m e) in K.
  assert (Vf : Valid_exp (SpecFloat.fexp 64 16384)) by (apply fexp_correct, Hp64).
  rewrite round_generic in K by (auto with typeclass_instances).
  rewrite Rlt_bool_true in K by exact Ab. destruct K as (V & R & F & S).
  split; [exact V|]. split; [exact R|]. split; [|exact S].
  destruct (binary_round 64 16384 mode_NE s m e); try discriminate; reflexivity.
Qed.

Lemma ld_round_valid s m e : is_ldouble (ld_round s m e).
Proof. apply (binary_round_correct 64 16384 Hp64 Hm64 mode_NE s m e). Qed.

Lemma valid_format x : is_ldouble x -> ldformat (SF2R radix2 x).
Proof.
  destruct x as [s|s| |s m e]; intros V; try apply generic_format_0.
  apply (format_fval 64 16384 s m e V).
Qed.

Lemma valid_bound x : is_ldouble x -> Rabs (SF2R radix2 x) < bpow radix2 16384.
Proof.
  destruct x as [s|s| |s m e]; intros V; cbn [SF2R]; try (rewrite Rabs_R0; apply bpow_gt_0).
  fold (fval s m e). rewrite fval_abs. apply (bounded_lt_emax 64 16384 m e V).
Qed.

Lemma int_format z : (Z.abs z <= 2 ^ 64)%Z -> ldformat (IZR z).
Proof.
  intros B. unfold ldformat.
  apply generic_format_FLT with (emin := (-16445)%Z) (prec := 64%Z).
  destruct (Z.eq_dec (Z.abs z) (2 ^ 64)) as [E|E].
  - exists (Float radix2 (Z.sgn z) 64).
    + assert (z = Z.sgn z * 2 ^ 64)%Z by lia. unfold F2R. cbn [Fnum Fexp].
      rewrite H at 1. rewrite mult_IZR. f_equal.
    + cbn [Fnum]. change (radix2 ^ 64)%Z with (2 ^ 64)%Z. lia.
    + cbn [Fexp]. lia.
  - exists (Float radix2 z 0).
    + unfold F2R. cbn. lra.
    + cbn [Fnum]. change (radix2 ^ 64)%Z with (2 ^ 64)%Z. lia.
    + cbn [Fexp]. lia.
Qed.

Lemma int_bound z : (Z.abs z <= 2 ^ 64)%Z -> Rabs (IZR z) < bpow radix2 16384.
Proof.
  intros B. rewrite <- abs_IZR. apply Rle_lt_trans with (bpow radix2 64).
  - rewrite <- (IZR_Zpower radix2) by lia. apply IZR_le. exact B.
  - apply bpow_lt. lia.
Qed.

Lemma fval_int s p : fval s p 0 = IZR (cond_Zopp s (Zpos p)).
Proof. unfold fval, F2R. cbn. lra. Qed.

Lemma ld_of_Z_exact z : (Z.abs z <= 2 ^ 64)%Z ->
  is_ldouble (ld_of_Z z) /\ SF2R radix2 (ld_of_Z z) = IZR z /\ f_finite (ld_of_Z z) = true.
Proof.
  intros B. destruct z as [|p|p]; cbn [ld_of_Z].
  - repeat split.
  - pose proof (fval_int false p) as E. cbn [cond_Zopp] in E.
    destruct (ld_round_exact false p 0) as (V & R & F & _); [rewrite E; apply int_format, B|rewrite E; apply int_bound, B|].
    rewrite <- E. auto.
  - pose proof (fval_int true p) as E. cbn [cond_Zopp] in E. change (- Z.pos p)%Z with (Z.neg p) in E.
    destruct (ld_round_exact true p 0) as (V & R & F & _); [rewrite E; apply int_format, B|rewrite E; apply int_bound, B|].
    rewrite <- E. auto.
Qed.

Lemma ld_order_finite x y : is_ldouble x -> is_ldouble y -> f_finite x = true -> f_finite y = true ->
  ld_order x y = match Rcompare (SF2R radix2 x) (SF2R radix2 y) with Lt => -1 | Eq => 0 | Gt => 1 end%Z.
Proof.
  intros Vx Vy Fx Fy. unfold ld_order.
  pose proof (Bcompare_correct 64 16384 (SF2B x Vx) (SF2B y Vy)) as K.
  rewrite !is_finite_SF2B in K. unfold Bcompare in K. rewrite !B2SF_SF2B in K.
  rewrite !B2R_SF2B in K.
  rewrite K; [destruct (Rcompare _ _); reflexivity| |].
  - destruct x; try discriminate; reflexivity.
  - destruct y; try discriminate; reflexivity.
Qed.

Lemma ld_scale_exact s0 z e :
  ldformat (F2R (Float radix2 z e)) -> Rabs (F2R (Float radix2 z e)) < bpow radix2 16384 ->
  is_ldouble (ld_scale s0 z e) /\ SF2R radix2 (ld_scale s0 z e) = F2R (Float radix2 z e) /\
  f_finite (ld_scale s0 z e) = true.
Proof.
  intros G B. destruct z as [|p|p]; cbn [ld_scale].
  - repeat split. rewrite F2R_0. reflexivity.
  - destruct (ld_round_exact false p e) as (V & R & F & _); auto.
  - destruct (ld_round_exact true p e) as (V & R & F & _); auto.
Qed.

Lemma at_exp_val s m e e0 : (e0 <= e)%Z -> F2R (Float radix2 (at_exp s m e e0) e0) = fval s m e.
Proof.
  intros L. unfold at_exp, fval, F2R. cbn [Fnum Fexp].
  replace (cond_Zopp s (Z.pos m * 2 ^ (e - e0)))%Z with (cond_Zopp s (Z.pos m) * 2 ^ (e - e0))%Z
    by (destruct s; cbn [cond_Zopp]; lia).
  rewrite mult_IZR, Rmult_assoc. f_equal.
  change 2%Z with (radix_val radix2). rewrite IZR_Zpower by lia. rewrite <- bpow_plus. f_equal. lia.
Qed.

Lemma ld_neg_val x : SF2R radix2 (ld_neg x) = - SF2R radix2 x.
Proof.
  destruct x as [s|s| |s m e]; cbn [ld_neg SF2R]; try lra.
  unfold F2R. cbn [Fnum Fexp]. destruct s; cbn [negb cond_Zopp]; rewrite ?opp_IZR; lra.
Qed.

Lemma ld_neg_valid x : is_ldouble x -> is_ldouble (ld_neg x).
Proof. destruct x; auto. Qed.

Lemma ld_neg_finite x : f_finite (ld_neg x) = f_finite x.
Proof. destruct x; reflexivity. Qed.

(** "The exact result [t] is a long double." *)
Definition exactly (z : spec_float) (t : R) : Prop := is_ldouble z /\ f_finite z = true /\ SF2R radix2 z = t.

Lemma ld_add_exact x y : is_ldouble x -> is_ldouble y -> f_finite x = true -> f_finite y = true ->
  ldformat (SF2R radix2 x + SF2R radix2 y) -> Rabs (SF2R radix2 x + SF2R radix2 y) < bpow radix2 16384 ->
  exactly (ld_add x y) (SF2R radix2 x + SF2R radix2 y).
Proof.
  intros Vx Vy Fx Fy G B. unfold exactly.
  destruct x as [sx|sx| |sx mx ex], y as [sy|sy| |sy my ey]; try discriminate; cbn [ld_add].
  - cbn [SF2R]. destruct (Bool.eqb sx sy); repeat split; cbn; lra.
  - split; [exact Vy|]. split; [reflexivity|]. cbn [SF2R]. lra.
  - split; [exact Vx|]. split; [reflexivity|]. cbn [SF2R]. lra.
  - cbv zeta. set (e := Z.min ex ey) in *.
    assert (E : F2R (Float radix2 (at_exp sx mx ex e + at_exp sy my ey e) e) = fval sx mx ex + fval sy my ey).
    { rewrite <- (at_exp_val sx mx ex e), <- (at_exp_val sy my ey e) by (unfold e; lia).
      unfold F2R. cbn [Fnum Fexp]. rewrite plus_IZR. lra. }
    change (SF2R radix2 (S754_finite sx mx ex)) with (fval sx mx ex) in *.
    change (SF2R radix2 (S754_finite sy my ey)) with (fval sy my ey) in *.
    rewrite <- E in *. destruct (ld_scale_exact false _ _ G B) as (V & R & F). auto.
Qed.

Lemma ld_mul_exact x y : is_ldouble x -> is_ldouble y -> f_finite x = true -> f_finite y = true ->
  ldformat (SF2R radix2 x * SF2R radix2 y) -> Rabs (SF2R radix2 x * SF2R radix2 y) < bpow radix2 16384 ->
  exactly (ld_mul x y) (SF2R radix2 x * SF2R radix2 y).
Proof.
  intros Vx Vy Fx Fy G B. unfold exactly.
  destruct x as [sx|sx| |sx mx ex], y as [sy|sy| |sy my ey]; try discriminate; cbn [ld_mul];
    try (repeat split; cbn [SF2R]; lra).
  change (SF2R radix2 (S754_finite sx mx ex)) with (fval sx mx ex) in *.
  change (SF2R radix2 (S754_finite sy my ey)) with (fval sy my ey) in *.
  assert (E : fval (xorb sx sy) (mx * my) (ex + ey) = fval sx mx ex * fval sy my ey).
  { unfold fval, F2R. cbn [Fnum Fexp]. rewrite bpow_plus.
    replace (cond_Zopp (xorb sx sy) (Z.pos (mx * my))) with (cond_Zopp sx (Z.pos mx) * cond_Zopp sy (Z.pos my))%Z
      by (rewrite Pos2Z.inj_mul; destruct sx, sy; cbn [cond_Zopp xorb]; lia).
    rewrite mult_IZR. ring. }
  rewrite <- E in *. destruct (ld_round_exact _ _ _ G B) as (V & R & F & _). auto.
Qed.

Lemma ld_div_exact x y : is_ldouble x -> is_ldouble y -> f_finite x = true -> f_finite y = true ->
  SF2R radix2 y <> 0 ->
  ldformat (SF2R radix2 x / SF2R radix2 y) -> Rabs (SF2R radix2 x / SF2R radix2 y) < bpow radix2 16384 ->
  exactly (ld_div x y) (SF2R radix2 x / SF2R radix2 y).
Proof.
  intros Vx Vy Fx Fy N G B. unfold exactly.
  destruct x as [sx|sx| |sx mx ex], y as [sy|sy| |sy my ey]; try discriminate; cbn [ld_div];
    try (exfalso; apply N; reflexivity).
  - repeat split. cbn [SF2R]. unfold Rdiv. lra.
  - pose proof (Bdiv_correct_aux 64 16384 Hp64 Hm64 mode_NE sx mx ex sy my ey) as K. cbv zeta in K.
    change (SF2R radix2 (S754_finite sx mx ex)) with (fval sx mx ex) in *.
    change (SF2R radix2 (S754_finite sy my ey)) with (fval sy my ey) in *.
    fold (fval sx mx ex) in K. fold (fval sy my ey) in K.
    assert (Vf : Valid_exp (SpecFloat.fexp 64 16384)) by (apply fexp_correct, Hp64).
    rewrite round_generic in K by (auto with typeclass_instances).
    rewrite Rlt_bool_true in K by exact B.
    destruct (SFdiv_core_binary _ _ _ _ _ _) as [[mz ez] lz]. destruct K as (V & R & F & S).
    split; [exact V|]. split; [|exact R].
    destruct (binary_round_aux _ _ _ _ _ _ _); try discriminate; reflexivity.
Qed.

Lemma ld_fmod_exact x y : is_ldouble x -> is_ldouble y -> f_finite x = true -> f_finite y = true ->
  SF2R radix2 y <> 0 ->
  let t := SF2R radix2 x - SF2R radix2 y * IZR (Ztrunc (SF2R radix2 x / SF2R radix2 y)) in
  ldformat t -> Rabs t < bpow radix2 16384 -> exactly (ld_fmod x y) t.
Proof.
  intros Vx Vy Fx Fy N t G B. unfold exactly.
  destruct x as [sx|sx| |sx mx ex], y as [sy|sy| |sy my ey]; try discriminate; cbn [ld_fmod];
    try (exfalso; apply N; reflexivity).
  - repeat split. subst t. cbn [SF2R]. unfold Rdiv. rewrite Rmult_0_l, Ztrunc_IZR. lra.
  - change (SF2R radix2 (S754_finite sx mx ex)) with (fval sx mx ex) in *.
    change (SF2R radix2 (S754_finite sy my ey)) with (fval sy my ey) in *.
    cbv zeta. set (e := Z.min ex ey) in *.
    assert (Nb : at_exp sy my ey e <> 0%Z).
    { intros Z. apply N. rewrite <- (at_exp_val sy my ey e) by (unfold e; lia). rewrite Z. apply F2R_0. }
    assert (E : F2R (Float radix2 (Z.rem (at_exp sx mx ex e) (at_exp sy my ey e)) e) = t).
    { subst t. rewrite <- (at_exp_val sx mx ex e), <- (at_exp_val sy my ey e) by (unfold e; lia).
      set (a := at_exp sx mx ex e) in *. set (b := at_exp sy my ey e) in *.
      assert (Q : F2R (Float radix2 a e) / F2R (Float radix2 b e) = IZR a / IZR b).
      { unfold F2R. cbn [Fnum Fexp]. field. split; [apply IZR_neq, Nb|]. apply Rgt_not_eq, bpow_gt_0. }
      rewrite Q, Ztrunc_div by exact Nb.
      unfold F2R. cbn [Fnum Fexp].
      replace (Z.rem a b) with (a - b * Z.quot a b)%Z by (pose proof (Z.quot_rem' a b); lia).
      rewrite minus_IZR, mult_IZR. ring. }
    rewrite <- E in *. destruct (ld_scale_exact sx _ _ G B) as (V & R & F). auto.
Qed.
