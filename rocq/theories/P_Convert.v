(** Property C44: scalar conversions. *)
From Verif Require Import Base CNum Float FloatProofs Value Convert Numeric NumericProofs NumberSpec P_ParseBool P_Compare P_Arith.
From Coq Require Import Reals Lra SpecFloat.
From Flocq Require Import Core IEEE754.BinarySingleNaN.
Open Scope Z_scope.

Lemma f_trunc_spec x : f_finite x = true -> f_trunc x = Some (Ztrunc (SF2R radix2 x)).
Proof.
  destruct x as [s|s| |s m e]; try discriminate; intros _; cbn [f_trunc SF2R].
  - rewrite Ztrunc_IZR. reflexivity.
  - f_equal. fold (fval s m e).
    assert (E : fval s m e = if s then Ropp (fval false m e) else fval false m e).
    { destruct s; [|reflexivity]. unfold fval, F2R. cbn [Fnum Fexp cond_Zopp]. rewrite opp_IZR. lra. }
    assert (K : Ztrunc (fval false m e) = if 0 <=? e then Z.pos m * 2 ^ e else Z.pos m / 2 ^ (- e)).
    { unfold fval, F2R. cbn [Fnum Fexp cond_Zopp]. destruct (Z.leb_spec 0 e) as [L|L].
      - change 2 with (radix_val radix2). rewrite <- IZR_Zpower by exact L. rewrite <- mult_IZR. apply Ztrunc_IZR.
      - assert (B : (bpow radix2 e = / IZR (2 ^ (- e)))%R).
        { replace e with (- - e) at 1 by lia. rewrite bpow_opp. f_equal.
          change 2 with (radix_val radix2). rewrite IZR_Zpower by lia. reflexivity. }
        rewrite B. fold (Rdiv (IZR (Z.pos m)) (IZR (2 ^ (- e)))).
        assert (P : 0 < 2 ^ (- e)) by (apply Z.pow_pos_nonneg; lia).
        rewrite Ztrunc_div by lia. apply Z.quot_div_nonneg; lia. }
    rewrite E. destruct s; cbn [cond_Zopp]; rewrite ?Ztrunc_opp, K; reflexivity.
Qed.

Lemma f_to_int_exact x z : f_finite x = true -> SF2R radix2 x = IZR z -> -2^63 <= z < 2^63 -> f_to_int x = Ok z.
Proof.
  intros F E B. unfold f_to_int. rewrite (f_trunc_spec x F), E, Ztrunc_IZR, (proj2 (in_i64_iff z) B). reflexivity.
Qed.

Lemma f_to_uns_exact x n : f_finite x = true -> SF2R radix2 x = IZR (Z.of_N n) -> (n < 2^64)%N -> f_to_uns x = Ok n.
Proof.
  intros F E B. unfold f_to_uns. rewrite (f_trunc_spec x F), E, Ztrunc_IZR.
  unfold in_u64. rewrite (proj2 (Z.leb_le 0 _)), (proj2 (Z.ltb_lt _ _)) by lia. cbn [andb]. rewrite N2Z.id. reflexivity.
Qed.

Lemma d_of_ld_exact x d : is_ldouble x -> f_finite x = true -> is_double d -> SF2R radix2 d = SF2R radix2 x ->
  SF2R radix2 (d_of_ld x) = SF2R radix2 x /\ f_finite (d_of_ld x) = true.
Proof.
  intros V F D E. destruct x as [s|s| |s m e]; try discriminate; cbn [d_of_ld]; [split; reflexivity|].
  assert (G : generic_format radix2 (SpecFloat.fexp 53 1024) (fval s m e)).
  { change (fval s m e) with (SF2R radix2 (S754_finite s m e)). rewrite <- E.
    destruct d as [s'|s'| |s' m' e']; try apply generic_format_0. apply (format_fval 53 1024 s' m' e' D). }
  assert (B : (Rabs (fval s m e) < bpow radix2 1024)%R).
  { change (fval s m e) with (SF2R radix2 (S754_finite s m e)). rewrite <- E.
    destruct d as [s'|s'| |s' m' e']; cbn [SF2R]; try (rewrite Rabs_R0; apply bpow_gt_0).
    fold (fval s' m' e'). rewrite fval_abs. apply (bounded_lt_emax 53 1024 m' e' D). }
  unfold d_round.
  pose proof (binary_round_correct 53 1024 Hp53 Hm53 mode_NE s m e) as K. cbv zeta in K. fold (fval s m e) in K.
  assert (Vf : Valid_exp (SpecFloat.fexp 53 1024)) by (apply fexp_correct, Hp53).
  rewrite round_generic in K by (auto with typeclass_instances).
  rewrite Rlt_bool_true in K by exact B. destruct K as (W & R & F' & S).
  split; [exact R|]. destruct (binary_round 53 1024 mode_NE s m e); try discriminate; reflexivity.
Qed.

(** Numbers: each conversion gives the same mathematical value whenever the target type
    can hold it. *)
Theorem C44_numbers v r : vok v -> real_of v = Some r ->
  (forall z, - 2^63 <= z < 2^63 -> r = IZR z -> as_int v = Ok z) /\
  (forall n, (n < 2^64)%N -> r = IZR (Z.of_N n) -> as_uns v = Ok n) /\
  (exists x, as_ld v = Ok x /\ is_ldouble x /\ real_of (VFlt x) = Some r) /\
  (forall d, is_double d -> SF2R radix2 d = r -> exists d', as_double v = Ok d' /\ is_double d' /\ real_of (VFlt d') = Some r) /\
  (as_bool v = Ok true <-> r <> 0%R).
Proof.
  intros V R. destruct (as_ld_real v r V R) as (l & El & Vl & Fl & Rl).
  split; [|split; [|split; [|split]]].
  - intros z B E. destruct v as [| |z'|n'|f| | | |]; try discriminate; cbn [vok] in V; cbn [as_int].
    + injection R as <-. apply eq_IZR in E. congruence.
    + injection R as <-. apply eq_IZR in E. subst z. f_equal. unfold to_i64.
      destruct (Z.ltb_spec (Z.of_N n') (2 ^ 63)); lia.
    + apply f_real in R. destruct R as [F <-]. apply f_to_int_exact; auto.
  - intros n B E. destruct v as [| |z'|n'|f| | | |]; try discriminate; cbn [vok] in V; cbn [as_uns].
    + injection R as <-. apply eq_IZR in E. subst z'. f_equal. unfold to_u64. rewrite Z.mod_small by lia. lia.
    + injection R as <-. apply eq_IZR in E. f_equal. lia.
    + apply f_real in R. destruct R as [F <-]. apply f_to_uns_exact; auto.
  - exists l. split; [exact El|]. split; [exact Vl|]. rewrite real_f by exact Fl. congruence.
  - intros d D E. unfold as_double. rewrite El. cbn [rbind].
    destruct (d_of_ld_exact l d Vl Fl D) as [R' F']; [congruence|].
    exists (d_of_ld l). split; [reflexivity|]. split; [apply d_of_ld_valid, Vl|]. rewrite real_f by exact F'. congruence.
  - destruct v as [| |z'|n'|f| | | |]; try discriminate; cbn [vok] in V; cbn [as_bool].
    + injection R as <-. split.
      * intros [= H]. apply negb_true_iff, Z.eqb_neq in H. apply IZR_neq. exact H.
      * intros H. f_equal. apply negb_true_iff, Z.eqb_neq. intros ->. auto.
    + injection R as <-. split.
      * intros [= H]. apply negb_true_iff, N.eqb_neq in H. apply IZR_neq. lia.
      * intros H. f_equal. apply negb_true_iff, N.eqb_neq. intros ->. auto.
    + apply f_real in R. destruct R as [F <-]. destruct f as [s|s| |s m e]; try discriminate.
      * split; [discriminate|]. intros H. exfalso. apply H. reflexivity.
      * split; [|reflexivity]. intros _. apply fval_nonzero.
Qed.
Print Assumptions C44_numbers.

(** null reads as zero, false and the empty text; a Boolean as 0 or 1 and "true" or
    "false", which read back as the same Boolean. *)
Theorem C44_null_and_bool b :
  as_int VNull = Ok 0 /\ as_uns VNull = Ok 0%N /\ as_ld VNull = Ok (S754_zero false) /\
  as_bool VNull = Ok false /\ as_string VNull = Ok [] /\
  as_int (VBool b) = Ok (if b then 1 else 0) /\ as_uns (VBool b) = Ok (if b then 1%N else 0%N) /\
  as_bool (VBool b) = Ok b /\ (exists x, as_ld (VBool b) = Ok x /\ real_of (VFlt x) = Some (if b then 1%R else 0%R)) /\
  (exists s, as_string (VBool b) = Ok s /\ as_bool (VStr s) = Ok b).
Proof.
  do 8 (split; [try reflexivity; destruct b; reflexivity|]). split.
  - destruct (ld_of_Z_exact (if b then 1 else 0)) as (V & R & F); [destruct b; lia|].
    exists (ld_of_Z (if b then 1 else 0)). split; [reflexivity|]. rewrite real_f by exact F. rewrite R. destruct b; reflexivity.
  - destruct b; eexists; split; reflexivity.
Qed.
Print Assumptions C44_null_and_bool.

(** ** Text *)

Definition digit (c : ascii) : Prop := (48 <= bval c <= 57)%N.
Definition numeral (ds : bytes) : Z := fold_left (fun a c => 10 * a + (Z.of_N (bval c) - 48)) ds 0.

(** [s] is white space, a sign, digits, and then anything that does not start with a
    digit. *)
Definition int_text (s sg ds : bytes) : Prop :=
  exists ws rest, s = ws ++ sg ++ ds ++ rest /\ Forall white ws /\
    In sg [[]; s2b "+"; s2b "-"] /\ ds <> [] /\ Forall digit ds /\
    (forall c t, rest = c :: t -> ~ digit c).

(** The integer that such a text denotes. *)
Definition denotes (sg ds : bytes) : Z := if beqb sg (s2b "-") then - numeral ds else numeral ds.

Lemma is_space_white c : is_space c = true <-> white c.
Proof.
  pose proof (blank_white [c]) as K. unfold blank in K. cbn [forallb] in K. rewrite andb_true_r in K.
  rewrite K. split; intros H; [inversion H; auto|constructor; auto].
Qed.

Lemma is_digit_digit c : is_digit c = true <-> digit c.
Proof. unfold is_digit, digit. rewrite andb_true_iff, !N.leb_le. tauto. Qed.

Lemma digits_forall ds : forallb is_digit ds = true <-> Forall digit ds.
Proof. rewrite forallb_forall, Forall_forall. split; intros H c Hc; apply is_digit_digit; auto. Qed.

Lemma numeral_dec ds : Forall digit ds -> numeral ds = Z.of_N (dec_value ds).
Proof.
  unfold numeral, dec_value, dec_acc. change 0 with (Z.of_N 0) at 1. generalize 0%N as a.
  induction ds as [|c ds IH]; intros a H; [reflexivity|]. inversion H as [|? ? H1 H2]; subst. cbn [fold_left].
  rewrite <- IH by exact H2. f_equal. unfold digit in H1. unfold digit_val. lia.
Qed.

(** The reader of an integer, up to the choice of the range. *)
Definition read_num (s : bytes) : option (bool * bytes) :=
  let '(neg, t) := take_sign (skip_space s) in
  match fst (span is_digit t) with [] => None | ds => Some (neg, ds) end.

Lemma read_num_spec s neg ds : read_num s = Some (neg, ds) <->
  exists sg, int_text s sg ds /\ neg = beqb sg (s2b "-").
Proof.
  unfold read_num. split.
  - intros H. pose proof (span_app is_space s) as E1. unfold skip_space in H.
    assert (W : forallb is_space (fst (span is_space s)) = true).
    { clear -s. induction s as [|c s IH]; [reflexivity|]. cbn. destruct (is_space c) eqn:E; [|reflexivity].
      destruct (span is_space s) as [a b]. cbn in *. rewrite E. exact IH. }
    set (ws := fst (span is_space s)) in *. set (t0 := snd (span is_space s)) in *.
    clearbody ws t0.
    assert (T : exists sg t, t0 = sg ++ t /\ In sg [[]; s2b "+"; s2b "-"] /\ take_sign t0 = (beqb sg (s2b "-"), t)).
    { destruct t0 as [|c t0]; [exists [], []; cbn; auto|]. cbn [take_sign].
      destruct (aeqb c "-") eqn:M; [apply aeqb_eq in M; subst; exists (s2b "-"), t0; cbn; auto 8|].
      destruct (aeqb c "+") eqn:P; [apply aeqb_eq in P; subst; exists (s2b "+"), t0; cbn; auto 8|].
      exists [], (c :: t0). cbn; auto. }
    destruct T as (sg & t & Et & Hsg & Es). rewrite Es in H.
    pose proof (span_app is_digit t) as E2.
    assert (Hd : forallb is_digit (fst (span is_digit t)) = true /\
                 (forall c r, snd (span is_digit t) = c :: r -> is_digit c = false)).
    { clear -t. induction t as [|c t IH]; [split; [reflexivity|discriminate]|]. cbn. destruct (is_digit c) eqn:E.
      - destruct (span is_digit t) as [a b]. cbn in *. rewrite E. exact IH.
      - split; [reflexivity|]. intros c' r [= <- <-]. exact E. }
    destruct (fst (span is_digit t)) as [|d ds'] eqn:F; [discriminate|]. injection H as <- <-.
    exists sg. split; [|reflexivity]. exists ws, (snd (span is_digit t)).
    split; [rewrite E2, <- Et; symmetry; exact E1|].
    split; [apply blank_white, W|]. split; [exact Hsg|]. split; [discriminate|].
    split; [apply digits_forall, Hd|]. intros c r E Q. apply is_digit_digit in Q. destruct Hd as [_ Hd]. rewrite (Hd c r E) in Q. discriminate.
  - intros (sg & (ws & rest & -> & W & Hsg & Hne & Hd & Hr) & ->).
    destruct ds as [|d ds]; [congruence|].
    assert (Dd : is_digit d = true) by (apply is_digit_digit; inversion Hd; auto).
    destruct (digit_not_special d Dd) as (D1 & D2 & D3 & _).
    assert (S1 : skip_space (ws ++ sg ++ (d :: ds) ++ rest) = sg ++ (d :: ds) ++ rest).
    { unfold skip_space. rewrite span_all; [reflexivity|apply blank_white, W|].
      destruct Hsg as [<-|[<-|[<-|[]]]]; cbn; try reflexivity. rewrite D1. reflexivity. }
    rewrite S1.
    assert (S2 : take_sign (sg ++ (d :: ds) ++ rest) = (beqb sg (s2b "-"), (d :: ds) ++ rest)).
    { destruct Hsg as [<-|[<-|[<-|[]]]]; try reflexivity. cbn -[aeqb]. rewrite D2, D3. reflexivity. }
    rewrite S2. rewrite span_all; [reflexivity|apply digits_forall, Hd|].
    destruct rest as [|c rest]; [reflexivity|]. apply negb_true_iff.
    destruct (is_digit c) eqn:E; [|reflexivity]. exfalso. apply (Hr c rest eq_refl). apply is_digit_digit, E.
Qed.

Lemma istream_ll_read s : istream_ll s =
  match read_num s with
  | None => None
  | Some (neg, ds) => let z := if (neg : bool) then - Z.of_N (dec_value ds) else Z.of_N (dec_value ds) in
                      if in_i64 z then Some z else None
  end.
Proof.
  unfold istream_ll, read_num. destruct (take_sign (skip_space s)) as [neg t].
  destruct (span is_digit t) as [[|d ds] r]; reflexivity.
Qed.

Lemma istream_ull_read s : istream_ull s =
  match read_num s with
  | None => None
  | Some (neg, ds) => let v := dec_value ds in
      if (v <? 2^64)%N then Some (if (neg : bool) then wrap64 (2^64 - v) else v) else None
  end.
Proof.
  unfold istream_ull, read_num. destruct (take_sign (skip_space s)) as [neg t].
  destruct (span is_digit t) as [[|d ds] r]; reflexivity.
Qed.

(** AsInt of a text is the integer the text starts with when it fits; everything else is
    refused with an exception. *)
Theorem C44_text_to_int s :
  (forall z, as_int (VStr s) = Ok z <->
     - 2^63 <= z < 2^63 /\ exists sg ds, int_text s sg ds /\ denotes sg ds = z) /\
  ((forall z, as_int (VStr s) <> Ok z) -> as_int (VStr s) = Throw UnableToConvertError).
Proof.
  cbn [as_int]. rewrite istream_ll_read. split.
  - intros z. split.
    + destruct (read_num s) as [[neg ds]|] eqn:R; [|discriminate]. apply read_num_spec in R.
      destruct R as (sg & T & ->). cbv zeta. intros H.
      destruct (in_i64 _) eqn:I; [|discriminate]. injection H as <-.
      split; [apply in_i64_iff, I|]. exists sg, ds. split; [exact T|]. unfold denotes.
      destruct T as (ws & rest & _ & _ & _ & _ & Hd & _). rewrite (numeral_dec ds Hd). reflexivity.
    + intros (B & sg & ds & T & D).
      assert (R : read_num s = Some (beqb sg (s2b "-"), ds)) by (apply read_num_spec; eauto).
      rewrite R. cbv zeta. unfold denotes in D.
      destruct T as (ws & rest & _ & _ & _ & _ & Hd & _). rewrite (numeral_dec ds Hd) in D. rewrite D.
      rewrite (proj2 (in_i64_iff z) B). reflexivity.
  - intros H. destruct (match read_num s with Some _ => _ | None => _ end) as [z|]; [|reflexivity].
    exfalso. apply (H z). reflexivity.
Qed.
Print Assumptions C44_text_to_int.

(** AsUnsigned of a text without a minus sign likewise; texts without a number or with
    one of 2^64 or more in magnitude are refused. *)
Theorem C44_text_to_unsigned_partial s :
  (forall sg ds, int_text s sg ds -> sg <> s2b "-" ->
     as_uns (VStr s) = if numeral ds <? 2^64 then Ok (Z.to_N (numeral ds)) else Throw UnableToConvertError) /\
  (forall sg ds, int_text s sg ds -> 2^64 <= numeral ds -> as_uns (VStr s) = Throw UnableToConvertError) /\
  ((forall sg ds, ~ int_text s sg ds) -> as_uns (VStr s) = Throw UnableToConvertError).
Proof.
  cbn [as_uns]. rewrite istream_ull_read. split; [|split].
  - intros sg ds T N.
    assert (R : read_num s = Some (beqb sg (s2b "-"), ds)) by (apply read_num_spec; eauto).
    rewrite R. destruct T as (ws & rest & _ & _ & _ & _ & Hd & _). rewrite (numeral_dec ds Hd), N2Z.id.
    destruct (beqb sg (s2b "-")) eqn:E; [apply beqb_eq in E; congruence|]. cbv zeta.
    destruct (N.ltb_spec (dec_value ds) (2^64)), (Z.ltb_spec (Z.of_N (dec_value ds)) (2^64)); try reflexivity; lia.
  - intros sg ds T L.
    assert (R : read_num s = Some (beqb sg (s2b "-"), ds)) by (apply read_num_spec; eauto).
    rewrite R. destruct T as (ws & rest & _ & _ & _ & _ & Hd & _). rewrite (numeral_dec ds Hd) in L. cbv zeta.
    destruct (N.ltb_spec (dec_value ds) (2^64)); [lia|reflexivity].
  - intros N. destruct (read_num s) as [[neg ds]|] eqn:R; [|reflexivity]. apply read_num_spec in R.
    destruct R as (sg & T & _). exfalso. apply (N sg ds T).
Qed.
Print Assumptions C44_text_to_unsigned_partial.

(** The text of an integer is read back as the same integer. *)
Theorem C44_text_roundtrip :
  (forall z, - 2^63 <= z < 2^63 -> exists s, as_string (VInt z) = Ok s /\ as_int (VStr s) = Ok z) /\
  (forall n, (n < 2^64)%N -> exists s, as_string (VUns n) = Ok s /\ as_uns (VStr s) = Ok n) /\
  (forall z, 0 <= z < 2^63 -> exists s, as_string (VInt z) = Ok s /\ as_uns (VStr s) = Ok (Z.to_N z)) /\
  (forall n, (n < 2^63)%N -> exists s, as_string (VUns n) = Ok s /\ as_int (VStr s) = Ok (Z.of_N n)).
Proof.
  assert (A : forall z, - 2^63 <= z < 2^63 -> istream_ll (dec_of_Z z) = Some z).
  { intros z B. rewrite istream_ll_read.
    assert (R : read_num (dec_of_Z z) = Some (z <? 0, dec_of_N (Z.to_N (Z.abs z)))).
    { apply read_num_spec. exists (if z <? 0 then s2b "-" else []). split; [|destruct (z <? 0); reflexivity].
      destruct (dec_of_N_spec (Z.to_N (Z.abs z))) as (_ & Hd & Hne & _).
      exists [], []. rewrite app_nil_r. split.
      { unfold dec_of_Z. destruct (Z.ltb_spec z 0); cbn [app s2b]; [|f_equal; lia].
        change (s2b "-") with ["-"%char]. cbn [app]. f_equal. f_equal. lia. }
      split; [constructor|]. split; [destruct (z <? 0); cbn; auto|]. split; [exact Hne|].
      split; [apply digits_forall, Hd|]. intros c t [=]. }
    rewrite R. cbv zeta. rewrite (proj1 (dec_of_N_spec _)).
    replace (if z <? 0 then - Z.of_N (Z.to_N (Z.abs z)) else Z.of_N (Z.to_N (Z.abs z))) with z
      by (destruct (Z.ltb_spec z 0); lia).
    rewrite (proj2 (in_i64_iff z) B). reflexivity. }
  split; [|split; [|split]].
  - intros z B. eexists. split; [reflexivity|]. cbn [as_int]. rewrite A by exact B. reflexivity.
  - intros n B. eexists. split; [reflexivity|]. cbn [as_uns]. rewrite istream_ull_dec by exact B. reflexivity.
  - intros z B. eexists. split; [reflexivity|]. cbn [as_uns]. unfold dec_of_Z.
    destruct (Z.ltb_spec z 0); [lia|]. rewrite istream_ull_dec by lia. reflexivity.
  - intros n B. eexists. split; [reflexivity|]. cbn [as_int].
    replace (dec_of_N n) with (dec_of_Z (Z.of_N n)); [rewrite A by lia; reflexivity|].
    unfold dec_of_Z. destruct (Z.ltb_spec (Z.of_N n) 0); [lia|]. f_equal. lia.
Qed.
Print Assumptions C44_text_roundtrip.

(** Values of the container types and blobs are refused. *)
Theorem C44_containers_refused v :
  In (type_of v) [ListType; MapType; BlobType] ->
  as_int v = Throw UnableToConvertError /\ as_uns v = Throw UnableToConvertError /\
  as_ld v = Throw UnableToConvertError /\ as_double v = Throw UnableToConvertError /\
  as_bool v = Throw UnableToConvertError /\ as_string v = Throw UnableToConvertError.
Proof. destruct v; cbn; intros [H|[H|[H|[]]]]; try discriminate; repeat split; reflexivity. Qed.
Print Assumptions C44_containers_refused.

(** "Exact or refused" is false: these conversions give another value without any
    error. *)
Theorem C44_refused_refuted :
  as_uns (VInt (-1)) = Ok (2^64 - 1)%N /\
  as_int (VUns (2^63)) = Ok (- 2^63) /\
  as_uns (VStr (s2b "-1")) = Ok (2^64 - 1)%N /\
  as_int (VFlt (S754_finite false (3 * 2^62) (-63))) = Ok 1 /\
  as_int (VStr (s2b "12abc")) = Ok 12 /\
  cast_signed 32 (VInt (2^32)) = Ok 0 /\
  cast_unsigned 16 (VUns 65537) = Ok 1%N.
Proof. vm_compute. repeat split. Qed.
Print Assumptions C44_refused_refuted.

(** A float that the integer type cannot hold is not refused either: the conversion is
    undefined. *)
Theorem C44_float_to_int_refuted :
  as_int (VFlt (S754_infinity false)) = UB /\ as_int (VFlt S754_nan) = UB /\
  as_int (VFlt (S754_finite false (2^63) 0)) = UB /\
  as_uns (VFlt (S754_finite true (2^63) (-63))) = UB /\ vok (VFlt (S754_finite true (2^63) (-63))).
Proof. vm_compute. repeat split. Qed.
Print Assumptions C44_float_to_int_refuted.

(** The narrower variant_casts are exact when the value fits. *)
Theorem C44_narrow_casts w v :
  0 < w <= 64 ->
  (forall z, as_int v = Ok z -> - 2^(w-1) <= z < 2^(w-1) -> cast_signed w v = Ok z) /\
  (forall n, as_uns v = Ok n -> (n < 2^(Z.to_N w))%N -> cast_unsigned (Z.to_N w) v = Ok n).
Proof.
  intros W. split.
  - intros z E B. unfold cast_signed. rewrite E. cbn [rbind]. f_equal. unfold cut_signed.
    assert (P : 2 ^ w = 2 * 2 ^ (w - 1)) by (rewrite <- Z.pow_succ_r by lia; f_equal; lia).
    destruct (Z.neg_nonneg_cases z) as [L|L].
    + assert (M : z mod 2 ^ w = z + 2 ^ w).
      { rewrite <- (Z.mod_add z 1 (2 ^ w)) by lia. rewrite Z.mod_small; lia. }
      rewrite M. cbv zeta. destruct (Z.ltb_spec (z + 2 ^ w) (2 ^ (w - 1))); lia.
    + cbv zeta. rewrite Z.mod_small by lia. destruct (Z.ltb_spec z (2 ^ (w - 1))); lia.
  - intros n E B. unfold cast_unsigned. rewrite E. cbn [rbind]. f_equal. apply N.mod_small, B.
Qed.
Print Assumptions C44_narrow_casts.

Example C44_example :
  as_int (VFlt (S754_finite true (5 * 2^61) (-61))) = Ok (-5) /\
  as_uns (VStr (s2b "  +42 apples")) = Ok 42%N /\ int_text (s2b "  +42 apples") (s2b "+") (s2b "42") /\
  vok (VFlt (S754_finite true (5 * 2^61) (-61))) /\
  as_ld (VStr (s2b "2.5e-1")) = Ok (S754_finite false (2^63) (-65)) /\
  as_ld (VStr (s2b "1e")) = Throw UnableToConvertError /\
  as_int (VStr (s2b "9223372036854775808")) = Throw UnableToConvertError.
Proof.
  split; [vm_compute; reflexivity|]. split; [vm_compute; reflexivity|]. split.
  { exists (s2b "  "), (s2b " apples"). split; [reflexivity|].
    split; [apply blank_white; reflexivity|]. split; [cbn; auto|]. split; [discriminate|].
    split; [apply digits_forall; reflexivity|]. intros c t [= <- <-] [H _]. vm_compute in H. auto. }
  vm_compute. repeat split.
Qed.
