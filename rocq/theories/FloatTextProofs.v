(** Proofs about decimal text of doubles: printing 17 digits and reading back. *)
From Verif Require Import Base CNum Float FloatText.
From Coq Require Import Reals Lra SpecFloat.
From Flocq Require Import Core IEEE754.BinarySingleNaN.
Open Scope Z_scope.

Definition radix10 : radix := Build_radix 10 eq_refl.

(** ** Numbers of digits *)

Lemma dec_value_cons c ds : dec_value (c :: ds) = (digit_val c * 10 ^ N.of_nat (List.length ds) + dec_value ds)%N.
Proof.
  unfold dec_value at 1. unfold dec_acc. cbn [fold_left].
  change (fold_left (fun (a : N) (c0 : ascii) => (10 * a + digit_val c0)%N) ds (10 * 0 + digit_val c)%N)
    with (dec_acc (10 * 0 + digit_val c) ds).
  rewrite dec_acc_lin. unfold dec_value. lia.
Qed.

Lemma digit_val_lt c : is_digit c = true -> (digit_val c < 10)%N.
Proof. unfold is_digit, digit_val. intros H. apply andb_true_iff in H as [H1 H2]. lia. Qed.

Lemma digit_val_pos c : is_digit c = true -> c <> "0"%char -> (0 < digit_val c)%N.
Proof.
  intros H K. destruct (N.eq_dec (digit_val c) 0) as [E|E]; [|lia]. exfalso. apply K.
  apply bval_inj. unfold digit_val, is_digit in *. apply andb_true_iff in H as [H1 H2].
  change (bval "0") with 48%N. lia.
Qed.

Lemma dec_value_lt ds : forallb is_digit ds = true -> (dec_value ds < 10 ^ N.of_nat (List.length ds))%N.
Proof.
  induction ds as [|c ds IH]; intros H; [reflexivity|].
  cbn [forallb] in H. apply andb_true_iff in H as [Hc Hd]. specialize (IH Hd).
  rewrite dec_value_cons. pose proof (digit_val_lt c Hc) as L.
  cbn [List.length]. rewrite Nat2N.inj_succ, N.pow_succ_r'.
  assert (digit_val c * 10 ^ N.of_nat (List.length ds) <= 9 * 10 ^ N.of_nat (List.length ds))%N
    by (apply N.mul_le_mono_r; lia). lia.
Qed.

Lemma dec_value_app_zeros k ds : dec_value (repeat "0"%char k ++ ds) = dec_value ds.
Proof. induction k as [|k IH]; [reflexivity|]. cbn [repeat app]. rewrite dec_value_cons, IH. reflexivity. Qed.

Lemma ndigits10_bounds n : 0 < n -> 0 < ndigits10 n /\ 10 ^ (ndigits10 n - 1) <= n < 10 ^ ndigits10 n.
Proof.
  intros Hn. unfold ndigits10. destruct (dec_of_N_spec (Z.to_N n)) as (Hv & Hd & Hne & Hz).
  destruct (dec_of_N (Z.to_N n)) as [|d ds] eqn:E; [congruence|].
  pose proof (dec_value_lt (d :: ds) Hd) as Lt. rewrite Hv in Lt.
  assert (Hd0 : d <> "0"%char) by (intros K; destruct (Hz d ds eq_refl K); lia).
  cbn [forallb] in Hd. apply andb_true_iff in Hd as [Hd1 Hd2].
  pose proof (digit_val_pos d Hd1 Hd0) as P.
  rewrite dec_value_cons in Hv.
  assert (G : (10 ^ N.of_nat (List.length ds) <= Z.to_N n)%N).
  { rewrite <- Hv. transitivity (1 * 10 ^ N.of_nat (List.length ds))%N; [lia|].
    transitivity (digit_val d * 10 ^ N.of_nat (List.length ds))%N; [apply N.mul_le_mono_r; lia|lia]. }
  cbn [List.length] in *.
  assert (P1 : Z.of_N (10 ^ N.of_nat (List.length ds)) = 10 ^ Z.of_nat (List.length ds)).
  { rewrite N2Z.inj_pow. rewrite nat_N_Z. reflexivity. }
  assert (P2 : Z.of_N (10 ^ N.of_nat (S (List.length ds))) = 10 ^ Z.of_nat (S (List.length ds))).
  { rewrite N2Z.inj_pow. rewrite nat_N_Z. reflexivity. }
  split; [lia|]. replace (Z.of_nat (S (List.length ds)) - 1) with (Z.of_nat (List.length ds)) by lia. lia.
Qed.

Lemma ndigits10_unique n k : 0 <= k -> 10 ^ k <= n < 10 ^ (k + 1) -> ndigits10 n = k + 1.
Proof.
  intros Hk H. assert (Hn : 0 < n) by (pose proof (Z.pow_pos_nonneg 10 k ltac:(lia) Hk); lia).
  destruct (ndigits10_bounds n Hn) as (P & L & U). set (d := ndigits10 n) in *.
  assert (k < d) by (apply (Z.pow_lt_mono_r_iff 10); lia).
  assert (d - 1 < k + 1) by (apply (Z.pow_lt_mono_r_iff 10); lia). lia.
Qed.

(** ** Scaling and the decimal exponent *)
Open Scope R_scope.

Lemma bpow10_pos k : 0 < bpow radix10 k.
Proof. apply bpow_gt_0. Qed.

Lemma IZR_pow10 k : (0 <= k)%Z -> IZR (10 ^ k) = bpow radix10 k.
Proof. intros H. rewrite <- (IZR_Zpower radix10) by exact H. reflexivity. Qed.

Lemma scale10_spec a b s a' b' : (0 < a)%Z -> (0 < b)%Z -> scale10 a b s = (a', b') ->
  (0 < a')%Z /\ (0 < b')%Z /\ IZR a' / IZR b' = IZR a / IZR b * bpow radix10 s.
Proof.
  intros Ha Hb. unfold scale10. destruct (0 <=? s)%Z eqn:E; intros [= <- <-].
  - assert (0 <= s)%Z by lia. pose proof (Z.pow_pos_nonneg 10 s ltac:(lia) H).
    split; [lia|]. split; [lia|]. rewrite mult_IZR, IZR_pow10 by lia.
    unfold Rdiv. ring.
  - assert (0 <= - s)%Z by lia. pose proof (Z.pow_pos_nonneg 10 (- s) ltac:(lia) H).
    split; [lia|]. split; [lia|]. rewrite mult_IZR, IZR_pow10 by lia.
    rewrite bpow_opp. field. repeat split; first [apply IZR_neq; lia|apply Rgt_not_eq, bpow10_pos].
Qed.

Lemma dec_exponent_spec num den : (0 < num)%Z -> (0 < den)%Z ->
  let X := dec_exponent num den in
  bpow radix10 X <= IZR num / IZR den < bpow radix10 (X + 1).
Proof.
  intros Hn Hd. unfold dec_exponent.
  destruct (ndigits10_bounds num Hn) as (Pn & Ln & Un).
  destruct (ndigits10_bounds den Hd) as (Pd & Ld & Ud).
  set (kn := ndigits10 num) in *. set (kd := ndigits10 den) in *.
  destruct (scale10 num den (- (kn - kd))) as [a b] eqn:E.
  destruct (scale10_spec _ _ _ _ _ Hn Hd E) as (Pa & Pb & V).
  apply IZR_le in Ln, Ld. apply IZR_lt in Un, Ud.
  rewrite IZR_pow10 in Ln, Ld, Un, Ud by lia.
  assert (Dp : 0 < IZR den) by (apply IZR_lt; lia).
  assert (Bp : 0 < IZR b) by (apply IZR_lt; lia).
  assert (U1 : IZR num / IZR den < bpow radix10 (kn - kd + 1)).
  { apply Rmult_lt_reg_r with (IZR den); [exact Dp|]. unfold Rdiv. rewrite Rmult_assoc, Rinv_l, Rmult_1_r by lra.
    apply Rlt_le_trans with (1 := Un). replace kn with ((kn - kd + 1) + (kd - 1))%Z at 1 by lia.
    rewrite bpow_plus. apply Rmult_le_compat_l; [apply bpow_ge_0|exact Ld]. }
  assert (L1 : bpow radix10 (kn - kd - 1) < IZR num / IZR den).
  { apply Rmult_lt_reg_r with (IZR den); [exact Dp|]. unfold Rdiv. rewrite Rmult_assoc, Rinv_l, Rmult_1_r by lra.
    apply Rlt_le_trans with (2 := Ln). replace (kn - 1)%Z with ((kn - kd - 1) + kd)%Z by lia.
    rewrite bpow_plus. apply Rmult_lt_compat_l; [apply bpow_gt_0|exact Ud]. }
  assert (K : (b <=? a)%Z = true <-> bpow radix10 (kn - kd) <= IZR num / IZR den).
  { assert (Q : IZR num / IZR den = IZR a / IZR b * bpow radix10 (kn - kd)).
    { rewrite V, Rmult_assoc, <- bpow_plus. replace (- (kn - kd) + (kn - kd))%Z with 0%Z by lia.
      cbn [bpow]. lra. }
    rewrite Q. split; intros H.
    - assert (H1 : IZR b <= IZR a) by (apply IZR_le; lia).
      rewrite <- (Rmult_1_l (bpow radix10 (kn - kd))) at 1. apply Rmult_le_compat_r; [apply bpow_ge_0|].
      apply Rmult_le_reg_r with (IZR b); [exact Bp|]. unfold Rdiv. rewrite Rmult_assoc, Rinv_l by lra. lra.
    - apply Z.leb_le, le_IZR.
      rewrite <- (Rmult_1_l (bpow radix10 (kn - kd))) in H at 1.
      apply Rmult_le_reg_r in H; [|apply bpow_gt_0].
      apply Rmult_le_reg_r with (/ IZR b); [apply Rinv_0_lt_compat, Bp|]. rewrite Rinv_r by lra. exact H. }
  destruct (b <=? a)%Z.
  - cbv zeta. split; [apply K; reflexivity|exact U1].
  - cbv zeta. replace (kn - kd - 1 + 1)%Z with (kn - kd)%Z by lia. split; [lra|].
    apply Rnot_le_lt. intros H. apply K in H. discriminate.
Qed.

Lemma div_half_even_spec a b : (0 < b)%Z ->
  Rabs (IZR (div_half_even a b) - IZR a / IZR b) <= / 2 /\
  (a / b <= div_half_even a b <= a / b + 1)%Z /\
  (a mod b = 0 -> div_half_even a b = a / b)%Z.
Proof.
  intros Hb. pose proof (Z.div_mod a b ltac:(lia)) as DM. pose proof (Z.mod_pos_bound a b Hb) as MB.
  set (q := (a / b)%Z) in *. set (r := (a mod b)%Z) in *.
  assert (Bp : 0 < IZR b) by (apply IZR_lt; lia).
  assert (V : IZR a / IZR b = IZR q + IZR r / IZR b).
  { rewrite DM, plus_IZR, mult_IZR. field. lra. }
  assert (Rb : forall x, IZR r / IZR b - x = (IZR r - x * IZR b) / IZR b) by (intros; field; lra).
  assert (Q : (2 * r <= b)%Z -> Rabs (IZR q - (IZR q + IZR r / IZR b)) <= / 2).
  { intros H. replace (IZR q - (IZR q + IZR r / IZR b)) with (- (IZR r / IZR b)) by ring.
    rewrite Rabs_Ropp, Rabs_pos_eq.
    - apply Rmult_le_reg_r with (IZR b); [exact Bp|]. unfold Rdiv. rewrite Rmult_assoc, Rinv_l by lra.
      apply IZR_le in H. rewrite mult_IZR in H. lra.
    - apply Rmult_le_pos; [apply IZR_le; lia|]. left. apply Rinv_0_lt_compat, Bp. }
  assert (Q' : (b <= 2 * r)%Z -> Rabs (IZR (q + 1) - (IZR q + IZR r / IZR b)) <= / 2).
  { intros H. rewrite plus_IZR. replace (IZR q + 1 - (IZR q + IZR r / IZR b)) with (1 - IZR r / IZR b) by ring.
    rewrite Rabs_pos_eq.
    - apply Rmult_le_reg_r with (IZR b); [exact Bp|]. rewrite Rmult_minus_distr_r. unfold Rdiv.
      rewrite Rmult_assoc, Rinv_l by lra. apply IZR_le in H. rewrite mult_IZR in H. lra.
    - apply Rmult_le_reg_r with (IZR b); [exact Bp|]. rewrite Rmult_minus_distr_r. unfold Rdiv.
      rewrite Rmult_assoc, Rinv_l by lra. assert (H2 : IZR r <= IZR b) by (apply IZR_le; lia). lra. }
  unfold div_half_even. fold q r. rewrite V.
  destruct (Z.compare_spec (2 * r) b) as [C|C|C].
  - destruct (Z.even q); (split; [first [apply Q; lia|apply Q'; lia]|]); split; lia.
  - split; [apply Q; lia|]. split; lia.
  - split; [apply Q'; lia|]. split; lia.
Qed.

(** The digits produced for [num/den]: right range, error at most half a unit. *)
Lemma sci_digits_spec p num den D X : (1 <= p)%Z -> (0 < num)%Z -> (0 < den)%Z ->
  sci_digits p num den = (D, X) ->
  (10 ^ (p - 1) <= D < 10 ^ p)%Z /\
  exists X0, bpow radix10 X0 <= IZR num / IZR den /\
    Rabs (IZR D * bpow radix10 (X - p + 1) - IZR num / IZR den) <= / 2 * bpow radix10 (X0 - p + 1).
Proof.
  intros Hp Hn Hd. unfold sci_digits. pose proof (dec_exponent_spec num den Hn Hd) as DE. cbv zeta in DE.
  set (X0 := dec_exponent num den) in *.
  destruct (scale10 num den (p - 1 - X0)) as [a b] eqn:S.
  destruct (scale10_spec _ _ _ _ _ Hn Hd S) as (Pa & Pb & V).
  destruct (div_half_even_spec a b Pb) as (E & R & Z0). set (D0 := div_half_even a b) in *.
  assert (Bp : 0 < IZR b) by (apply IZR_lt; lia).
  assert (L : (10 ^ (p - 1) <= a / b)%Z).
  { apply Z.div_le_lower_bound; [lia|]. apply le_IZR. rewrite mult_IZR, IZR_pow10 by lia.
    apply Rmult_le_reg_r with (/ IZR b); [apply Rinv_0_lt_compat, Bp|].
    replace (IZR b * bpow radix10 (p - 1) * / IZR b) with (bpow radix10 (p - 1)) by (field; lra).
    change (IZR a * / IZR b) with (IZR a / IZR b). rewrite V.
    replace (p - 1)%Z with (X0 + (p - 1 - X0))%Z at 1 by lia. rewrite bpow_plus.
    apply Rmult_le_compat_r; [apply bpow_ge_0|]. apply DE. }
  assert (U : (a / b < 10 ^ p)%Z).
  { apply Z.div_lt_upper_bound; [lia|]. apply lt_IZR. rewrite mult_IZR, IZR_pow10 by lia.
    apply Rmult_lt_reg_r with (/ IZR b); [apply Rinv_0_lt_compat, Bp|].
    replace (IZR b * bpow radix10 p * / IZR b) with (bpow radix10 p) by (field; lra).
    change (IZR a * / IZR b) with (IZR a / IZR b). rewrite V.
    replace p with ((X0 + 1) + (p - 1 - X0))%Z at 2 by lia. rewrite bpow_plus.
    apply Rmult_lt_compat_r; [apply bpow_gt_0|]. apply DE. }
  assert (Err : Rabs (IZR D0 * bpow radix10 (X0 - p + 1) - IZR num / IZR den) <= / 2 * bpow radix10 (X0 - p + 1)).
  { replace (IZR num / IZR den) with (IZR a / IZR b * bpow radix10 (X0 - p + 1)).
    - rewrite <- Rmult_minus_distr_r, Rabs_mult, (Rabs_pos_eq (bpow _ _)) by apply bpow_ge_0.
      apply Rmult_le_compat_r; [apply bpow_ge_0|exact E].
    - rewrite V, Rmult_assoc, <- bpow_plus. replace (p - 1 - X0 + (X0 - p + 1))%Z with 0%Z by lia. cbn [bpow]. lra. }
  destruct (Z.eqb_spec D0 (10 ^ p)) as [C|C]; intros [= <- <-].
  - split. { split; [lia|]. apply Z.pow_lt_mono_r; lia. }
    exists X0. split; [apply DE|].
    replace (IZR (10 ^ (p - 1)) * bpow radix10 (X0 + 1 - p + 1)) with (IZR D0 * bpow radix10 (X0 - p + 1)); [exact Err|].
    rewrite C, !IZR_pow10, <- !bpow_plus by lia. f_equal. lia.
  - split; [lia|]. exists X0. split; [apply DE|exact Err].
Qed.

(** ** Reading: the value read is the rounding of the decimal value *)

Definition rnd53 := round radix2 (SpecFloat.fexp 53 1024) (round_mode mode_NE).

Lemma Hp53 : Prec_gt_0 53. Proof. reflexivity. Qed.
Lemma Hm53 : Prec_lt_emax 53 1024. Proof. reflexivity. Qed.

Lemma dec_to_d_correct (neg : bool) (D : N) (E : Z) : (0 < D)%N ->
  let v := (if neg then - (IZR (Z.of_N D) * bpow radix10 E) else IZR (Z.of_N D) * bpow radix10 E) in
  let z := dec_to_d neg D E in
  SpecFloat.valid_binary 53 1024 z = true /\
  if Rlt_bool (Rabs (rnd53 v)) (bpow radix2 1024) then
    SF2R radix2 z = rnd53 v /\ is_finite_SF z = true /\ sign_SF z = neg
  else z = binary_overflow 53 1024 mode_NE neg.
Proof.
  intros HD v z. destruct D as [|p]; [lia|]. unfold z, dec_to_d. destruct (0 <=? E)%Z eqn:C.
  - pose proof (binary_round_correct 53 1024 Hp53 Hm53 mode_NE neg (Z.to_pos (Zpos p * 10 ^ E)) 0) as B.
    cbv zeta in B. fold (d_round neg (Z.to_pos (Zpos p * 10 ^ E)) 0) in B.
    assert (P : (0 < Zpos p * 10 ^ E)%Z) by (pose proof (Z.pow_pos_nonneg 10 E ltac:(lia) ltac:(lia)); lia).
    rewrite Z2Pos.id in B by exact P.
    assert (V : F2R (Float radix2 (cond_Zopp neg (Zpos p * 10 ^ E)) 0) = v).
    { unfold F2R. cbn [Fnum Fexp bpow]. unfold v. rewrite Rmult_1_r.
      destruct neg; cbn [cond_Zopp]; rewrite ?opp_IZR, mult_IZR, IZR_pow10 by lia; reflexivity. }
    rewrite V in B. exact B.
  - assert (P : (0 < 10 ^ (- E))%Z) by (apply Z.pow_pos_nonneg; lia).
    pose proof (Bdiv_correct_aux 53 1024 Hp53 Hm53 mode_NE neg p 0 false (Z.to_pos (10 ^ (- E))) 0) as B.
    cbv zeta in B. rewrite Z2Pos.id in B by exact P. rewrite xorb_false_r in B.
    assert (V : F2R (Float radix2 (cond_Zopp neg (Zpos p)) 0) / F2R (Float radix2 (cond_Zopp false (10 ^ (- E))) 0) = v).
    { unfold F2R. cbn [Fnum Fexp bpow]. unfold v. rewrite !Rmult_1_r. cbn [cond_Zopp].
      rewrite IZR_pow10, bpow_opp by lia.
      assert (bpow radix10 E <> 0) by (apply Rgt_not_eq, bpow_gt_0).
      destruct neg; cbn [cond_Zopp]; rewrite ?opp_IZR; cbn [Z.of_N]; field; assumption. }
    rewrite V in B. exact B.
Qed.

(** ** Two doubles apart: rounding recovers the original *)

Lemma rnd53_near (x v : R) : generic_format radix2 (SpecFloat.fexp 53 1024) x -> 0 < x ->
  Rabs (v - x) <= / 2 * (x * bpow radix10 (-16)) -> rnd53 v = x.
Proof.
  intros Fx Px H.
  pose proof (fexp_correct 53 1024 Hp53) as Vf.
  assert (B16 : bpow radix10 (-16) = / 10000000000000000) by (change (-16)%Z with (- (16))%Z; rewrite (bpow_opp radix10 16), <- (IZR_Zpower radix10) by lia; reflexivity).
  assert (Mono : Monotone_exp (SpecFloat.fexp 53 1024)) by (apply (fexp_monotone 53 1024)).
  assert (Pb : forall k, 0 < bpow radix2 k) by (intros; apply bpow_gt_0).
  destruct (mag radix2 x) as [ex Hex]. pose proof (Hex ltac:(lra)) as Hx. rewrite Rabs_pos_eq in Hx by lra.
  assert (Mx : mag_val radix2 x (mag radix2 x) = ex).
  { apply mag_unique. rewrite Rabs_pos_eq by lra. exact Hx. }
  set (u := ulp radix2 (SpecFloat.fexp 53 1024) x).
  assert (Hu : u = bpow radix2 (SpecFloat.fexp 53 1024 ex)).
  { unfold u. rewrite ulp_neq_0 by lra. unfold cexp. rewrite Mx. reflexivity. }
  assert (Fe : (ex - 53 <= SpecFloat.fexp 53 1024 ex)%Z) by (unfold SpecFloat.fexp; lia).
  assert (Up : 0 < u) by (rewrite Hu; apply Pb).
  assert (E53 : bpow radix2 53 = 9007199254740992) by reflexivity.
  assert (XU : x < 9007199254740992 * u).
  { apply Rlt_le_trans with (1 := proj2 Hx). rewrite <- E53, Hu, <- bpow_plus. apply bpow_le. lia. }
  assert (S : succ radix2 (SpecFloat.fexp 53 1024) x = x + u) by (apply succ_eq_pos; lra).
  apply Rabs_le_inv in H. rewrite B16 in H.
  unfold rnd53, round_mode. apply Rle_antisym.
  - apply round_N_le_midp; auto. rewrite S. lra.
  - apply round_N_ge_midp; auto.
    rewrite pred_eq_pos by lra. unfold pred_pos. rewrite Mx.
    destruct (Req_bool_spec x (bpow radix2 (ex - 1))) as [C|C].
    + (* power of two *)
      assert (G : x <= 4503599627370496 * u).
      { rewrite C, Hu. assert (E52 : bpow radix2 52 = 4503599627370496) by reflexivity.
        rewrite <- E52, <- bpow_plus. apply bpow_le. lia. }
      assert (W : u <= 2 * bpow radix2 (SpecFloat.fexp 53 1024 (ex - 1))).
      { rewrite Hu. change 2 with (bpow radix2 1). rewrite <- bpow_plus. apply bpow_le. unfold SpecFloat.fexp. lia. }
      lra.
    + fold u. lra.
Qed.

(** The printed digits of a double round back to it. *)
Lemma digits_round_back s m e D X : SpecFloat.bounded 53 1024 m e = true ->
  sci_digits 17 (if 0 <=? e then Zpos m * 2 ^ e else Zpos m)%Z (if 0 <=? e then 1 else 2 ^ (- e))%Z = (D, X) ->
  dec_to_d s (Z.to_N D) (X - 16) = S754_finite s m e.
Proof.
  intros Bd E.
  set (num := (if 0 <=? e then Zpos m * 2 ^ e else Zpos m)%Z) in *.
  set (den := (if 0 <=? e then 1 else 2 ^ (- e))%Z) in *.
  assert (Pn : (0 < num)%Z).
  { unfold num. destruct (0 <=? e)%Z eqn:C; [|lia]. pose proof (Z.pow_pos_nonneg 2 e ltac:(lia) ltac:(lia)). lia. }
  assert (Pd : (0 < den)%Z).
  { unfold den. destruct (0 <=? e)%Z eqn:C; [lia|]. apply Z.pow_pos_nonneg; lia. }
  destruct (sci_digits_spec 17 num den D X ltac:(lia) Pn Pd E) as ((DL & DU) & X0 & LX & Err).
  set (x := F2R (Float radix2 (Zpos m) e)).
  assert (Vx : IZR num / IZR den = x).
  { unfold x, F2R, num, den. cbn [Fnum Fexp]. destruct (0 <=? e)%Z eqn:C.
    - rewrite mult_IZR, <- (IZR_Zpower radix2) by lia. cbn [radix_val radix2]. field.
    - assert (Q : IZR (2 ^ (- e)) = bpow radix2 (- e)) by (rewrite <- (IZR_Zpower radix2) by lia; reflexivity).
      rewrite Q, bpow_opp. field. apply Rgt_not_eq, bpow_gt_0. }
  rewrite Vx in *.
  assert (Px : 0 < x) by (rewrite <- Vx; apply Rdiv_lt_0_compat; apply IZR_lt; lia).
  pose proof (canonical_bounded 53 1024 false m e Bd) as Can. cbn [cond_Zopp] in Can.
  assert (Fx : generic_format radix2 (SpecFloat.fexp 53 1024) x).
  { apply generic_format_canonical. exact Can. }
  set (v := IZR D * bpow radix10 (X - 16)).
  assert (Rv : rnd53 v = x).
  { apply rnd53_near; auto. replace (X - 17 + 1)%Z with (X - 16)%Z in Err by lia. fold v in Err.
    apply Rle_trans with (1 := Err). apply Rmult_le_compat_l; [lra|].
    replace (X0 - 17 + 1)%Z with (X0 + (-16))%Z by lia. rewrite bpow_plus.
    apply Rmult_le_compat_r; [apply bpow_ge_0|exact LX]. }
  assert (Dp : (0 < Z.to_N D)%N) by (pose proof (Z.pow_pos_nonneg 10 (17 - 1) ltac:(lia) ltac:(lia)); lia).
  pose proof (dec_to_d_correct s (Z.to_N D) (X - 16) Dp) as K. cbv zeta in K.
  rewrite Z2N.id in K by lia. fold v in K.
  assert (Rs : rnd53 (if s then - v else v) = if s then - x else x).
  { destruct s; [|exact Rv]. unfold rnd53, round_mode in *. rewrite round_NE_opp. f_equal. exact Rv. }
  rewrite Rs in K.
  assert (Ab : Rabs (if s then - x else x) < bpow radix2 1024).
  { replace (Rabs (if s then - x else x)) with x.
    - apply (bounded_lt_emax 53 1024 m e Bd).
    - destruct s; rewrite ?Rabs_Ropp, Rabs_pos_eq; lra. }
  rewrite Rlt_bool_true in K by exact Ab. destruct K as (Vz & K1 & K2 & K3).
  set (z := dec_to_d s (Z.to_N D) (X - 16)) in *.
  assert (Tz : SF2B z Vz = B754_finite s m e Bd).
  { apply B2R_Bsign_inj.
    - rewrite is_finite_SF2B. exact K2.
    - reflexivity.
    - rewrite B2R_SF2B, K1. unfold B2R, F2R. cbn [Fnum Fexp]. unfold x, F2R. cbn [Fnum Fexp].
      destruct s; cbn [cond_Zopp]; [rewrite opp_IZR; ring|reflexivity].
    - rewrite Bsign_SF2B. exact K3. }
  rewrite <- (B2SF_SF2B 53 1024 z Vz), Tz. reflexivity.
Qed.

(** ** Text: layout and reading back *)
Close Scope R_scope.
Open Scope Z_scope.

Lemma skip_space_digit s : match s with c :: _ => is_space c = false | [] => True end -> skip_space s = s.
Proof. unfold skip_space. destruct s as [|c t]; [reflexivity|]. intros H. cbn [span]. rewrite H. reflexivity. Qed.

Definition is_dot_or_end (t : bytes) : Prop := match t with [] => True | c :: _ => is_digit c = false end.

Lemma span_digits ds t : forallb is_digit ds = true -> is_dot_or_end t -> span is_digit (ds ++ t) = (ds, t).
Proof. intros H K. apply span_all; [exact H|]. destruct t as [|c t]; [reflexivity|]. cbn in K. rewrite K. reflexivity. Qed.

(** strtod of [sign? int . frac rest]. *)
Lemma strtod_shape neg ip fp rest : forallb is_digit ip = true -> ip <> [] -> forallb is_digit fp = true ->
  is_dot_or_end rest ->
  strtod ((if neg : bool then ["-"%char] else []) ++ ip ++ "."%char :: fp ++ rest)
  = dec_to_d neg (dec_value (ip ++ fp)) (read_exp rest - Z.of_nat (List.length fp)).
Proof.
  intros Hi Ne Hf Hr. unfold strtod.
  assert (Sk : skip_space ((if neg then ["-"%char] else []) ++ ip ++ "."%char :: fp ++ rest)
             = (if neg then ["-"%char] else []) ++ ip ++ "."%char :: fp ++ rest).
  { apply skip_space_digit. destruct neg; [reflexivity|]. destruct ip as [|c ip]; [congruence|].
    cbn in *. apply andb_true_iff in Hi as [Hc _]. apply digit_not_special in Hc. tauto. }
  rewrite Sk.
  assert (Ts : take_sign ((if neg then ["-"%char] else []) ++ ip ++ "."%char :: fp ++ rest)
             = (neg, ip ++ "."%char :: fp ++ rest)).
  { destruct neg; [reflexivity|]. destruct ip as [|c ip]; [congruence|]. cbn [app take_sign].
    cbn in Hi. apply andb_true_iff in Hi as [Hc _]. apply digit_not_special in Hc as (_ & H1 & H2 & _).
    rewrite H1, H2. reflexivity. }
  rewrite Ts, span_digits by (auto; reflexivity).
  change (aeqb "." ".") with true. cbv iota. rewrite span_digits by assumption.
  destruct ip as [|c ip]; [congruence|]. reflexivity.
Qed.

Lemma forallb_firstn {A} (f : A -> bool) n l : forallb f l = true -> forallb f (firstn n l) = true.
Proof. revert n. induction l as [|x l IH]; intros [|n] H; cbn in *; auto. apply andb_true_iff in H as [-> H]. cbn. auto. Qed.
Lemma forallb_skipn {A} (f : A -> bool) n l : forallb f l = true -> forallb f (skipn n l) = true.
Proof. revert n. induction l as [|x l IH]; intros [|n] H; cbn in *; auto. apply andb_true_iff in H as [_ H]. auto. Qed.
Lemma forallb_repeat {A} (f : A -> bool) x n : f x = true -> forallb f (repeat x n) = true.
Proof. intros H. induction n; cbn; rewrite ?H; auto. Qed.

Lemma read_exp_text X : read_exp (exp_text X) = X.
Proof.
  unfold exp_text. destruct (dec_of_N_spec (Z.to_N (Z.abs X))) as (Hv & Hd & Hne & _).
  set (d := dec_of_N (Z.to_N (Z.abs X))) in *.
  assert (E : span is_digit (if Z.abs X <? 10 then "0"%char :: d else d) = (if Z.abs X <? 10 then "0"%char :: d else d, [])).
  { apply span_nil. destruct (Z.abs X <? 10); [cbn|]; exact Hd. }
  assert (V : Z.of_N (dec_value (if Z.abs X <? 10 then "0"%char :: d else d)) = Z.abs X).
  { destruct (Z.abs X <? 10); [rewrite dec_value_cons|]; rewrite Hv; change (digit_val "0") with 0%N; lia. }
  unfold read_exp. change (aeqb "e" "e" || aeqb "e" "E")%bool with true. cbv iota.
  destruct (X <? 0) eqn:C; cbn [take_sign].
  - change (aeqb "-" "-") with true. cbv iota. rewrite E, V. lia.
  - change (aeqb "+" "-") with false. change (aeqb "+" "+") with true. cbv iota. rewrite E, V. lia.
Qed.

(** The pieces of the layout: integer digits, fraction digits, exponent part. *)
Lemma layout_shape p D X : 1 <= p -> 10 ^ (p - 1) <= D < 10 ^ p ->
  exists ip fp rest, layout_g p D X = ip ++ "."%char :: fp ++ rest /\
    forallb is_digit ip = true /\ ip <> [] /\ forallb is_digit fp = true /\
    (rest = [] \/ rest = exp_text X) /\
    (fp = [] -> X = p - 1 \/ p = 1) /\
    (forall d t, ip = d :: t -> d = "0"%char -> t = []) /\
    dec_value (ip ++ fp) = Z.to_N D /\ read_exp rest - Z.of_nat (List.length fp) = X - p + 1.
Proof.
  intros Hp HD. assert (Dp : 0 < D) by (pose proof (Z.pow_pos_nonneg 10 (p - 1) ltac:(lia) ltac:(lia)); lia).
  unfold layout_g. destruct (dec_of_N_spec (Z.to_N D)) as (Hv & Hd & Hne & Hz).
  assert (L : List.length (dec_of_N (Z.to_N D)) = Z.to_nat p).
  { pose proof (ndigits10_unique D (p - 1) ltac:(lia)) as Q. replace (p - 1 + 1) with p in Q by lia.
    specialize (Q HD). unfold ndigits10 in Q. lia. }
  set (ds := dec_of_N (Z.to_N D)) in *.
  assert (Nz : forall d t, ds = d :: t -> d <> "0"%char).
  { intros d t E K. destruct (Hz d t E K). lia. }
  destruct ((-4 <=? X) && (X <? p))%bool eqn:C.
  - destruct (0 <=? X) eqn:C2.
    + exists (firstn (Z.to_nat (X + 1)) ds), (skipn (Z.to_nat (X + 1)) ds), [].
      rewrite app_nil_r, firstn_skipn, skipn_length, L.
      split; [reflexivity|]. split; [apply forallb_firstn, Hd|]. split.
      { replace (Z.to_nat (X + 1)) with (S (Z.to_nat X)) by lia. destruct ds; [congruence|]. cbn. congruence. }
      split; [apply forallb_skipn, Hd|]. split; [left; reflexivity|]. split.
      { intros K. apply (f_equal (@List.length _)) in K. rewrite skipn_length, L in K. cbn in K. left. lia. }
      split.
      { intros d t E K. replace (Z.to_nat (X + 1)) with (S (Z.to_nat X)) in E by lia.
        destruct ds as [|d0 ds0]; [congruence|]. cbn in E. injection E as -> _. exfalso. eapply Nz; eauto. }
      split; [exact Hv|]. cbn [read_exp]. lia.
    + exists ["0"%char], (repeat "0"%char (Z.to_nat (- X - 1)) ++ ds), [].
      rewrite app_nil_r. split; [reflexivity|]. split; [reflexivity|]. split; [congruence|]. split.
      { rewrite forallb_app, Hd, forallb_repeat by reflexivity. reflexivity. }
      split; [left; reflexivity|]. split.
      { intros K. apply app_eq_nil in K as [_ K]. congruence. }
      split; [intros d t [= <- <-]; reflexivity|].
      split.
      { change (["0"%char] ++ ?l) with (repeat "0"%char 1 ++ l). rewrite !dec_value_app_zeros. exact Hv. }
      rewrite app_length, repeat_length, L. cbn [read_exp]. lia.
  - exists (firstn 1 ds), (skipn 1 ds), (exp_text X).
    rewrite firstn_skipn, skipn_length, L.
    split; [reflexivity|]. split; [apply forallb_firstn, Hd|]. split.
    { destruct ds; [congruence|]. cbn. congruence. }
    split; [apply forallb_skipn, Hd|]. split; [right; reflexivity|]. split.
    { intros K. apply (f_equal (@List.length _)) in K. rewrite skipn_length, L in K. cbn in K. right. lia. }
    split. { intros d t E K. destruct ds; cbn in E; congruence. }
    split; [exact Hv|]. rewrite read_exp_text. lia.
Qed.

Lemma exp_text_head X : is_dot_or_end (exp_text X).
Proof. reflexivity. Qed.

Lemma strtod_print_zero s : strtod (print_g 17 (S754_zero s)) = S754_zero s.
Proof. destruct s; vm_compute; reflexivity. Qed.

Lemma strtod_print x : is_double x -> f_finite x = true -> strtod (print_g 17 x) = x.
Proof.
  intros V F. destruct x as [s|s| |s m e]; try discriminate; [apply strtod_print_zero|].
  unfold print_g. change (Z.max 17 1) with 17.
  destruct (sci_digits 17 _ _) as [D X] eqn:E.
  assert (HD : 10 ^ (17 - 1) <= D < 10 ^ 17).
  { eapply sci_digits_spec; [| | |exact E]; [lia| |].
    - destruct (0 <=? e) eqn:C; [|lia]. pose proof (Z.pow_pos_nonneg 2 e ltac:(lia) ltac:(lia)). lia.
    - destruct (0 <=? e) eqn:C; [lia|]. apply Z.pow_pos_nonneg; lia. }
  destruct (layout_shape 17 D X ltac:(lia) HD) as (ip & fp & rest & Lay & Hi & Ne & Hf & Hr & _ & _ & Val & Ex).
  rewrite Lay, strtod_shape; auto.
  - rewrite Val, Ex. replace (X - 17 + 1) with (X - 16) by lia. apply digits_round_back; [exact V|exact E].
  - destruct Hr as [->| ->]; [exact I|reflexivity].
Qed.
