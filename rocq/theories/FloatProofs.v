(** Facts about conversions between double and long double. *)
From Verif Require Import Base Float.
From Coq Require Import Reals Lra SpecFloat.
From Flocq Require Import Core IEEE754.BinarySingleNaN.
Open Scope R_scope.

Lemma Hp53 : Prec_gt_0 53. Proof. reflexivity. Qed.
Lemma Hm53 : Prec_lt_emax 53 1024. Proof. reflexivity. Qed.
Lemma Hp64 : Prec_gt_0 64. Proof. reflexivity. Qed.
Lemma Hm64 : Prec_lt_emax 64 16384. Proof. reflexivity. Qed.

Definition fval (s : bool) (m : positive) (e : Z) : R := F2R (Float radix2 (cond_Zopp s (Zpos m)) e).

Lemma fval_abs s m e : Rabs (fval s m e) = F2R (Float radix2 (Zpos m) e).
Proof. unfold fval. rewrite <- F2R_Zabs, abs_cond_Zopp. reflexivity. Qed.

Lemma fval_nonzero s m e : fval s m e <> 0.
Proof.
  intros H. assert (K : Rabs (fval s m e) = 0) by (rewrite H; apply Rabs_R0). rewrite fval_abs in K.
  assert (0 < F2R (Float radix2 (Zpos m) e)) by (apply F2R_gt_0; reflexivity). lra.
Qed.

(** A valid finite float is determined by value and sign. *)
Lemma sf_unique prec emax z s m e :
  Prec_gt_0 prec -> Prec_lt_emax prec emax ->
  SpecFloat.valid_binary prec emax z = true -> SpecFloat.bounded prec emax m e = true ->
  SF2R radix2 z = fval s m e -> is_finite_SF z = true -> sign_SF z = s -> z = S754_finite s m e.
Proof.
  intros P1 P2 Vz Bd E F S.
  assert (T : SF2B z Vz = B754_finite s m e Bd).
  { apply B2R_Bsign_inj; [rewrite is_finite_SF2B; exact F|reflexivity| |rewrite Bsign_SF2B; exact S].
    rewrite B2R_SF2B, E. reflexivity. }
  rewrite <- (B2SF_SF2B prec emax z Vz), T. reflexivity.
Qed.

Lemma format_fval prec emax s m e : SpecFloat.bounded prec emax m e = true ->
  generic_format radix2 (SpecFloat.fexp prec emax) (fval s m e).
Proof. intros B. apply generic_format_canonical. apply (canonical_bounded prec emax s m e B). Qed.

Lemma ld_of_d_finite s m e : SpecFloat.bounded 53 1024 m e = true ->
  exists m' e', ld_of_d (S754_finite s m e) = S754_finite s m' e' /\
    SpecFloat.bounded 64 16384 m' e' = true /\ fval s m' e' = fval s m e.
Proof.
  intros B. cbn [ld_of_d]. unfold ld_round.
  pose proof (binary_round_correct 64 16384 Hp64 Hm64 mode_NE s m e) as K. cbv zeta in K.
  fold (fval s m e) in K.
  assert (G : generic_format radix2 (SpecFloat.fexp 64 16384) (fval s m e)).
  { pose proof (format_fval 53 1024 s m e B) as G.
    apply (generic_inclusion_mag radix2 (SpecFloat.fexp 53 1024)); [|exact G].
    intros _. unfold SpecFloat.fexp, SpecFloat.emin. lia. }
  rewrite round_generic in K by (auto with typeclass_instances).
  assert (Ab : Rabs (fval s m e) < bpow radix2 16384).
  { rewrite fval_abs. apply Rlt_trans with (bpow radix2 1024).
    - apply (bounded_lt_emax 53 1024 m e B).
    - apply bpow_lt. lia. }
  rewrite Rlt_bool_true in K by exact Ab. destruct K as (V & R & F & S).
  destruct (binary_round 64 16384 mode_NE s m e) as [s'|s'| |s' m' e']; try discriminate.
  - exfalso. cbn in R. apply (fval_nonzero s m e). congruence.
  - cbn in S. subst s'. exists m', e'. split; [reflexivity|]. split; [exact V|exact R].
Qed.

Lemma d_of_ld_of_d d : is_double d -> d_of_ld (ld_of_d d) = d.
Proof.
  intros V. destruct d as [s|s| |s m e]; try reflexivity.
  destruct (ld_of_d_finite s m e V) as (m' & e' & -> & B' & E).
  cbn [d_of_ld]. unfold d_round.
  pose proof (binary_round_correct 53 1024 Hp53 Hm53 mode_NE s m' e') as K. cbv zeta in K.
  fold (fval s m' e') in K. rewrite E in K.
  assert (Vf : Valid_exp (SpecFloat.fexp 53 1024)) by (apply fexp_correct, Hp53).
  rewrite round_generic in K by (auto with typeclass_instances; apply (format_fval 53 1024 s m e V)).
  assert (Ab : Rabs (fval s m e) < bpow radix2 1024) by (rewrite fval_abs; apply (bounded_lt_emax 53 1024 m e V)).
  rewrite Rlt_bool_true in K by exact Ab. destruct K as (W & R & F & S).
  apply (sf_unique 53 1024); auto using Hp53, Hm53.
Qed.

Lemma ld_of_d_valid d : is_double d -> is_ldouble (ld_of_d d).
Proof.
  intros V. destruct d as [s|s| |s m e]; try reflexivity.
  destruct (ld_of_d_finite s m e V) as (m' & e' & -> & B' & E). exact B'.
Qed.

Lemma ld_of_d_f_finite d : is_double d -> f_finite (ld_of_d d) = f_finite d.
Proof.
  intros V. destruct d as [s|s| |s m e]; try reflexivity.
  destruct (ld_of_d_finite s m e V) as (m' & e' & -> & B' & E). reflexivity.
Qed.

Lemma d_of_ld_valid x : is_ldouble x -> is_double (d_of_ld x).
Proof.
  destruct x as [s|s| |s m e]; try reflexivity. intros _. cbn [d_of_ld].
  apply (binary_round_correct 53 1024 Hp53 Hm53 mode_NE s m e).
Qed.
