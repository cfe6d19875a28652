(** Property C11: arithmetic. *)
From Verif Require Import Base Float FloatProofs Value Numeric NumericProofs NumberSpec P_Compare.
From Coq Require Import Reals Lra SpecFloat.
From Flocq Require Import Core IEEE754.BinarySingleNaN.
Open Scope Z_scope.

(** ** Specification *)

(** The real number a Variant holds, when it holds one. *)
Definition real_of (v : value) : option R :=
  match num_val v with Some (Fin r) => Some r | _ => None end.

(** The promotion rule: float if either side is, else unsigned if either side is, else
    signed. *)
Definition promoted (a b : vtype) : option vtype :=
  match a, b with
  | IntegerType, IntegerType => Some IntegerType
  | IntegerType, UnsignedType | UnsignedType, (IntegerType | UnsignedType) => Some UnsignedType
  | FloatType, (IntegerType | UnsignedType | FloatType) | (IntegerType | UnsignedType), FloatType => Some FloatType
  | _, _ => None
  end.

(** The mathematical result; the remainder is that of the truncated quotient. *)
Definition exact_op (op : arith) (x y : R) : R :=
  match op with
  | OpAdd => x + y
  | OpSub => x - y
  | OpMul => x * y
  | OpDiv => x / y
  | OpRem => x - y * IZR (Ztrunc (x / y))
  end%R.

Definition divides_by_zero (op : arith) (y : R) : Prop := (op = OpDiv \/ op = OpRem) /\ y = 0%R.

(** The remainders that the code gets wrong (see the refutations below): one operand
    negative while the other is unsigned, and the least signed integer by -1. *)
Definition odd_remainder (op : arith) (a b : value) : Prop :=
  op = OpRem /\
  match a, b with
  | VInt x, VUns _ => x < 0
  | VUns _, VInt y => y < 0
  | VInt x, VInt y => x = - 2 ^ 63 /\ y = -1
  | _, _ => False
  end.

(** ** Proofs *)

Lemma quot_exact a b z : b <> 0 -> (IZR a / IZR b = IZR z)%R -> Z.quot a b = z.
Proof. intros N E. rewrite <- Ztrunc_div by exact N. rewrite E. apply Ztrunc_IZR. Qed.

Lemma div_exact a b z : b <> 0 -> (IZR a / IZR b = IZR z)%R -> a = b * z.
Proof.
  intros N E. apply eq_IZR. rewrite mult_IZR, <- E. field. apply IZR_neq, N.
Qed.

Lemma rem_exact a b z : b <> 0 -> (IZR a - IZR b * IZR (Ztrunc (IZR a / IZR b)) = IZR z)%R -> Z.rem a b = z.
Proof.
  intros N E. rewrite Ztrunc_div in E by exact N. rewrite <- mult_IZR, <- minus_IZR in E.
  apply eq_IZR in E. pose proof (Z.quot_rem' a b). lia.
Qed.

Lemma in_i64_iff z : in_i64 z = true <-> - 2 ^ 63 <= z < 2 ^ 63.
Proof. unfold in_i64. rewrite andb_true_iff, Z.leb_le, Z.ltb_lt. tauto. Qed.

Lemma int_op_exact op a b z : -2^63 <= a < 2^63 -> -2^63 <= b < 2^63 -> -2^63 <= z < 2^63 ->
  ~ divides_by_zero op (IZR b) -> ~ (op = OpRem /\ a = - 2^63 /\ b = -1) ->
  exact_op op (IZR a) (IZR b) = IZR z -> int_op op a b = Ok z.
Proof.
  intros Ha Hb Hz D O E. unfold int_op, divides_by_zero in *. destruct op; cbn [exact_op] in E.
  - rewrite <- plus_IZR in E. apply eq_IZR in E. rewrite E, (proj2 (in_i64_iff z) Hz). reflexivity.
  - rewrite <- minus_IZR in E. apply eq_IZR in E. rewrite E, (proj2 (in_i64_iff z) Hz). reflexivity.
  - rewrite <- mult_IZR in E. apply eq_IZR in E. rewrite E, (proj2 (in_i64_iff z) Hz). reflexivity.
  - assert (N : b <> 0) by (intros ->; apply D; auto).
    rewrite (proj2 (Z.eqb_neq b 0) N), (quot_exact a b z N E), (proj2 (in_i64_iff z) Hz). reflexivity.
  - assert (N : b <> 0) by (intros ->; apply D; auto).
    rewrite (proj2 (Z.eqb_neq b 0) N), (rem_exact a b z N E).
    assert (Q : - 2 ^ 63 <= Z.quot a b < 2 ^ 63).
    { destruct (Z.eq_dec b (-1)) as [->|Nb].
      - change (-1) with (- (1)). rewrite Z.quot_opp_r, Z.quot_1_r by lia. assert (a <> - 2^63) by tauto. lia.
      - destruct (Z.eq_dec b 1) as [->|N1]; [rewrite Z.quot_1_r; lia|].
        pose proof (Z.quot_abs a b N) as QA. clear E O D.
        assert (B2 : 2 <= Z.abs b) by lia.
        assert (U : Z.abs a ÷ Z.abs b <= 2 ^ 62).
        { apply Z.quot_le_upper_bound; [lia|]. apply Z.le_trans with (2 * 2 ^ 62); [lia|].
          apply Z.mul_le_mono_nonneg_r; lia. }
        rewrite QA in U. lia. }
    rewrite (proj2 (in_i64_iff _) Q). reflexivity.
Qed.

(** Signed operands reach the unsigned operators modulo 2^64. *)
Lemma uns_op_exact op a b z : -2^63 <= a < 2^64 -> -2^63 <= b < 2^64 -> 0 <= z < 2^64 ->
  (0 <= a \/ 0 <= b) -> (op = OpRem -> 0 <= a /\ 0 <= b) ->
  ~ divides_by_zero op (IZR b) -> exact_op op (IZR a) (IZR b) = IZR z ->
  uns_op op (to_u64 a) (to_u64 b) = Ok (Z.to_N z).
Proof.
  intros Ha Hb Hz S O D E. unfold divides_by_zero in *.
  assert (Ma : 0 <= a mod 2 ^ 64 < 2 ^ 64) by (apply Z.mod_pos_bound; lia).
  assert (Mb : 0 <= b mod 2 ^ 64 < 2 ^ 64) by (apply Z.mod_pos_bound; lia).
  unfold to_u64. destruct op; cbn [exact_op uns_op] in *.
  - rewrite <- plus_IZR in E. apply eq_IZR in E. f_equal. unfold wrap64. apply N2Z.inj.
    rewrite N2Z.inj_mod, N2Z.inj_add, !Z2N.id by lia. change (Z.of_N (2 ^ 64)) with (2 ^ 64).
    rewrite <- Z.add_mod by lia. rewrite E. apply Z.mod_small. lia.
  - rewrite <- minus_IZR in E. apply eq_IZR in E. f_equal. unfold wrap64. apply N2Z.inj.
    rewrite N2Z.inj_mod, N2Z.inj_sub, N2Z.inj_add, !Z2N.id by lia. change (Z.of_N (2 ^ 64)) with (2 ^ 64).
    replace (a mod 2 ^ 64 + 2 ^ 64 - b mod 2 ^ 64) with ((a mod 2 ^ 64 - b mod 2 ^ 64) + 1 * 2 ^ 64) by lia.
    rewrite Z.mod_add by lia. rewrite <- Zminus_mod. rewrite E. apply Z.mod_small. lia.
  - rewrite <- mult_IZR in E. apply eq_IZR in E. f_equal. unfold wrap64. apply N2Z.inj.
    rewrite N2Z.inj_mod, N2Z.inj_mul, !Z2N.id by lia. change (Z.of_N (2 ^ 64)) with (2 ^ 64).
    rewrite <- Z.mul_mod by lia. rewrite E. apply Z.mod_small. lia.
  - assert (N : b <> 0) by (intros ->; apply D; auto).
    pose proof (div_exact a b z N E) as P.
    assert (Nm : b mod 2 ^ 64 <> 0).
    { intros Z0. destruct (Z.neg_nonneg_cases b) as [L|L]; [|rewrite Z.mod_small in Z0 by lia; lia].
      replace b with ((b + 2 ^ 64) + (-1) * 2 ^ 64) in Z0 by lia. rewrite Z.mod_add, Z.mod_small in Z0 by lia. lia. }
    destruct (N.eqb_spec (Z.to_N (b mod 2 ^ 64)) 0) as [Q|Q]; [lia|]. f_equal. apply N2Z.inj.
    rewrite N2Z.inj_div, !Z2N.id by lia.
    destruct (Z.eq_dec z 0) as [->|Nz].
    + rewrite Z.mul_0_r in P. subst a. rewrite Z.mod_0_l by lia. apply Z.div_0_l. exact Nm.
    + assert (0 <= a /\ 0 < b) by (clear -P Nz Hz S N; destruct S; nia). rewrite !Z.mod_small by lia. subst a. rewrite Z.mul_comm. apply Z.div_mul. exact N.
  - assert (N : b <> 0) by (intros ->; apply D; auto). destruct (O eq_refl) as [Pa Pb].
    pose proof (rem_exact a b z N E) as P.
    rewrite !Z.mod_small by lia.
    destruct (N.eqb_spec (Z.to_N b) 0) as [Q|Q]; [lia|]. f_equal. apply N2Z.inj.
    rewrite N2Z.inj_mod, !Z2N.id by lia. rewrite <- P. symmetry. apply Z.rem_mod_nonneg; lia.
Qed.

Lemma ld_op_exact op x y r : is_ldouble x -> is_ldouble y -> f_finite x = true -> f_finite y = true ->
  ~ divides_by_zero op (SF2R radix2 y) -> is_ldouble r ->
  SF2R radix2 r = exact_op op (SF2R radix2 x) (SF2R radix2 y) ->
  exactly (ld_op op x y) (exact_op op (SF2R radix2 x) (SF2R radix2 y)).
Proof.
  intros Vx Vy Fx Fy D Vr E. unfold divides_by_zero in D.
  pose proof (valid_format r Vr) as G. pose proof (valid_bound r Vr) as B. rewrite E in G, B.
  destruct op; cbn [ld_op exact_op] in *.
  - apply ld_add_exact; auto.
  - unfold ld_sub, Rminus in *. rewrite <- ld_neg_val in *.
    apply ld_add_exact; auto using ld_neg_valid. rewrite ld_neg_finite. exact Fy.
  - apply ld_mul_exact; auto.
  - apply ld_div_exact; auto.
  - apply ld_fmod_exact; auto.
Qed.

(** The integer value of a value of an integer type. *)
Definition int_of (v : value) : option Z :=
  match v with VInt z => Some z | VUns n => Some (Z.of_N n) | _ => None end.

Lemma real_of_int v z : int_of v = Some z -> real_of v = Some (IZR z).
Proof. destruct v; try discriminate; intros [= <-]; reflexivity. Qed.

Lemma as_uns_int v z : vok v -> int_of v = Some z -> as_uns v = Ok (to_u64 z) /\ -2^63 <= z < 2^64.
Proof.
  destruct v; try discriminate; intros V [= <-]; cbn [vok as_uns] in *.
  - split; [reflexivity|lia].
  - split; [|lia]. f_equal. unfold to_u64. rewrite Z.mod_small by lia. lia.
Qed.

Lemma as_ld_real v r : vok v -> real_of v = Some r ->
  exists l, as_ld v = Ok l /\ is_ldouble l /\ f_finite l = true /\ SF2R radix2 l = r.
Proof.
  unfold real_of. intros V E. destruct (num_val v) as [x|] eqn:N; [|discriminate].
  destruct (as_ld_num v x V N) as (l & A & B & C). destruct x; try discriminate. injection E as <-.
  exists l. tauto.
Qed.

Lemma f_real x r : real_of (VFlt x) = Some r -> f_finite x = true /\ SF2R radix2 x = r.
Proof. destruct x as [s|[|]| |s m e]; try discriminate; intros [= <-]; split; reflexivity. Qed.

Lemma real_f x : f_finite x = true -> real_of (VFlt x) = Some (SF2R radix2 x).
Proof. destruct x; try discriminate; reflexivity. Qed.

(** The result has the promoted type and the exact value whenever some value of that
    type has it, except for the remainders above and division by zero. *)
Theorem C11_exact_partial op a b x y t r :
  vok a -> vok b -> real_of a = Some x -> real_of b = Some y ->
  promoted (type_of a) (type_of b) = Some t ->
  ~ divides_by_zero op y -> ~ odd_remainder op a b ->
  vok r -> type_of r = t -> real_of r = Some (exact_op op x y) ->
  exists c, v_arith op a b = Ok c /\ type_of c = t /\ vok c /\ real_of c = Some (exact_op op x y).
Proof.
  intros Va Vb Ra Rb P D O Vr Tr Rr. unfold v_arith.
  assert (HF : forall la lb, as_ld a = Ok la -> as_ld b = Ok lb -> t = FloatType ->
     numeric_upcast (type_of a) (type_of b) = Ok FloatType -> is_num (type_of a) = true ->
     exists c, (if is_num (type_of a) then numeric_operation op a b else Throw NotNumericTypeError) = Ok c /\
        type_of c = t /\ vok c /\ real_of c = Some (exact_op op x y)).
  { intros la lb Ha Hb Ht Hu Hn. rewrite Hn. unfold numeric_operation. rewrite Hu. cbn [rbind].
    rewrite Ha, Hb. cbn [rbind]. eexists. split; [reflexivity|].
    destruct (as_ld_real a x Va Ra) as (la' & Ea & V1 & F1 & R1). rewrite Ha in Ea. injection Ea as <-.
    destruct (as_ld_real b y Vb Rb) as (lb' & Eb & V2 & F2 & R2). rewrite Hb in Eb. injection Eb as <-.
    subst t. destruct r as [| | | |fr| | | |]; try discriminate. apply f_real in Rr. destruct Rr as [Fr Rr].
    subst x y. destruct (ld_op_exact op la lb fr V1 V2 F1 F2 D Vr Rr) as (W1 & W2 & W3).
    split; [reflexivity|]. split; [exact W1|]. rewrite real_f by exact W2. f_equal. exact W3. }
  assert (HU : forall za zb, int_of a = Some za -> int_of b = Some zb -> t = UnsignedType ->
     numeric_upcast (type_of a) (type_of b) = Ok UnsignedType -> is_num (type_of a) = true ->
     (0 <= za \/ 0 <= zb) -> (op = OpRem -> 0 <= za /\ 0 <= zb) ->
     exists c, (if is_num (type_of a) then numeric_operation op a b else Throw NotNumericTypeError) = Ok c /\
        type_of c = t /\ vok c /\ real_of c = Some (exact_op op x y)).
  { intros za zb Ha Hb Ht Hu Hn S Od. rewrite Hn. unfold numeric_operation. rewrite Hu. cbn [rbind].
    destruct (as_uns_int a za Va Ha) as [-> B1]. destruct (as_uns_int b zb Vb Hb) as [-> B2]. cbn [rbind].
    rewrite (real_of_int a za Ha) in Ra. rewrite (real_of_int b zb Hb) in Rb. injection Ra as <-. injection Rb as <-.
    subst t. destruct r as [| | |n| | | | |]; try discriminate. cbn [vok] in Vr. injection Rr as Rr.
    rewrite (uns_op_exact op za zb (Z.of_N n)); auto; try lia. cbn [rbind]. rewrite N2Z.id.
    eexists. split; [reflexivity|]. split; [reflexivity|]. split; [exact Vr|]. cbn. congruence. }
  assert (HI : forall za zb, a = VInt za -> b = VInt zb ->
     exists c, (if is_num (type_of a) then numeric_operation op a b else Throw NotNumericTypeError) = Ok c /\
        type_of c = t /\ vok c /\ real_of c = Some (exact_op op x y)).
  { intros za zb -> ->. cbn in P. injection P as <-. cbn [is_num type_of numeric_operation numeric_upcast rbind as_int].
    unfold numeric_operation. cbn [type_of numeric_upcast rbind as_int].
    injection Ra as <-. injection Rb as <-. destruct r as [| |z| | | | | |]; try discriminate.
    cbn [vok] in Va, Vb, Vr. injection Rr as Rr.
    rewrite (int_op_exact op za zb z); auto.
    { cbn [rbind]. eexists. split; [reflexivity|]. split; [reflexivity|]. split; [exact Vr|]. cbn. congruence. }
  }
  destruct (as_ld_real a x Va Ra) as (la & Ea & _). destruct (as_ld_real b y Vb Rb) as (lb & Eb & _).
  destruct a as [| |za|na|fa| | | |]; try discriminate; destruct b as [| |zb|nb|fb| | | |]; try discriminate;
    cbn in P; injection P as <-; try (eapply HF; eauto; fail); try (eapply HI; eauto; fail);
    (eapply HU; [reflexivity|reflexivity|reflexivity|reflexivity|reflexivity|lia|]);
    intros ->; (split; try lia); apply Z.nlt_ge; intros L; apply O; (split; [reflexivity|exact L]).
Qed.
Print Assumptions C11_exact_partial.

(** The type of every result is the promoted one, and depends on nothing else. *)
Theorem C11_result_type op a b c :
  v_arith op a b = Ok c -> promoted (type_of a) (type_of b) = Some (type_of c).
Proof.
  unfold v_arith, numeric_operation. intros H.
  destruct a, b; cbn in H; try discriminate; cbn;
    repeat match type of H with
    | rbind ?e _ = _ => let E := fresh in destruct e eqn:E; cbn [rbind] in H; try discriminate
    end; injection H as <-; reflexivity.
Qed.
Print Assumptions C11_result_type.

(** Operands that are not numbers are rejected with an exception. *)
Theorem C11_rejects op a b :
  promoted (type_of a) (type_of b) = None -> exists e, v_arith op a b = Throw e.
Proof.
  unfold v_arith, numeric_operation. intros H.
  destruct a, b; cbn in H; try discriminate; cbn; eexists; reflexivity.
Qed.
Print Assumptions C11_rejects.

(** Signed addition, subtraction and multiplication never give a wrong value: they are
    exact or their behaviour is undefined (no result at all). *)
Theorem C11_signed_never_wrong op a b z :
  In op [OpAdd; OpSub; OpMul] -> v_arith op (VInt a) (VInt b) = Ok (VInt z) ->
  IZR z = exact_op op (IZR a) (IZR b).
Proof.
  unfold v_arith, numeric_operation. cbn [is_num type_of numeric_upcast rbind as_int].
  intros [<-|[<-|[<-|[]]]]; cbn [int_op exact_op]; destruct (in_i64 _); try discriminate;
    cbn [rbind]; intros [= <-]; [apply plus_IZR|apply minus_IZR|apply mult_IZR].
Qed.
Print Assumptions C11_signed_never_wrong.

(** Unary minus, ++ and -- are exact when the result fits and reject non-numbers. *)
Theorem C11_unary v f (g : R -> R) :
  In (f, g) [(v_neg, fun x => (- x)%R); (v_incr, fun x => (x + 1)%R); (v_decr, fun x => (x - 1)%R)] ->
  (forall x r, vok v -> real_of v = Some x -> vok r -> type_of r = type_of v -> real_of r = Some (g x) ->
     exists c, f v = Ok c /\ type_of c = type_of v /\ real_of c = Some (g x)) /\
  (is_num (type_of v) = false -> exists e, f v = Throw e).
Proof.
  intros H. split.
  - intros x r V R Vr T Rr. destruct v as [| |z|n|fl| | | |]; try discriminate;
      destruct r as [| |z'|n'|fl'| | | |]; try discriminate; cbn [vok] in V, Vr.
    + injection R as <-. destruct H as [H|[H|[H|[]]]]; injection H as <- <-; injection Rr as Rr; cbn.
      * rewrite <- opp_IZR in Rr. apply eq_IZR in Rr. rewrite <- Rr.
        rewrite (proj2 (in_i64_iff z') Vr). eexists. split; [reflexivity|]. split; [reflexivity|]. cbn. rewrite Rr, opp_IZR. reflexivity.
      * change 1%R with (IZR 1) in Rr. rewrite <- plus_IZR in Rr. apply eq_IZR in Rr. rewrite <- Rr.
        rewrite (proj2 (in_i64_iff z') Vr). cbn. eexists. split; [reflexivity|]. split; [reflexivity|]. cbn. rewrite Rr, plus_IZR. reflexivity.
      * change 1%R with (IZR 1) in Rr. rewrite <- minus_IZR in Rr. apply eq_IZR in Rr. rewrite <- Rr.
        rewrite (proj2 (in_i64_iff z') Vr). cbn. eexists. split; [reflexivity|]. split; [reflexivity|]. cbn. rewrite Rr, minus_IZR. reflexivity.
    + injection R as <-. destruct H as [H|[H|[H|[]]]]; injection H as <- <-; injection Rr as Rr; unfold v_neg, v_incr, v_decr, uns_op, wrap64.
      * rewrite <- opp_IZR in Rr. apply eq_IZR in Rr. assert (n = 0%N) by lia. subst n. vm_compute (_ mod _)%N.
        eexists. split; [reflexivity|]. split; [reflexivity|]. cbn. f_equal. lra.
      * change 1%R with (IZR 1) in Rr. rewrite <- plus_IZR in Rr. apply eq_IZR in Rr.
        rewrite N.mod_small by lia. cbn [rbind]. eexists. split; [reflexivity|]. split; [reflexivity|]. cbn.
        f_equal. rewrite <- plus_IZR. f_equal. lia.
      * change 1%R with (IZR 1) in Rr. rewrite <- minus_IZR in Rr. apply eq_IZR in Rr.
        replace (n + 2 ^ 64 - 1)%N with ((n - 1) + 1 * 2 ^ 64)%N by lia. rewrite N.mod_add, N.mod_small by lia.
        cbn [rbind]. eexists. split; [reflexivity|]. split; [reflexivity|]. cbn.
        f_equal. rewrite <- minus_IZR. f_equal. lia.
    + apply f_real in R. destruct R as [F <-]. apply f_real in Rr. destruct Rr as [Fr Rr].
      destruct (ld_of_Z_exact 1 ltac:(lia)) as (V1 & R1 & F1).
      destruct H as [H|[H|[H|[]]]]; injection H as <- <-; unfold v_neg, v_incr, v_decr; eexists; (split; [reflexivity|]); (split; [reflexivity|]).
      * rewrite real_f by (rewrite ld_neg_finite; exact F). rewrite ld_neg_val. reflexivity.
      * destruct (ld_op_exact OpAdd fl (ld_of_Z 1) fl' V V1 F F1) as (W1 & W2 & W3); auto.
        { unfold divides_by_zero. intuition discriminate. }
        { cbn [exact_op]. rewrite R1. exact Rr. }
        cbn [ld_op exact_op] in *. rewrite real_f by exact W2. rewrite W3, R1. reflexivity.
      * destruct (ld_op_exact OpSub fl (ld_of_Z 1) fl' V V1 F F1) as (W1 & W2 & W3); auto.
        { unfold divides_by_zero. intuition discriminate. }
        { cbn [exact_op]. rewrite R1. exact Rr. }
        cbn [ld_op exact_op] in *. rewrite real_f by exact W2. rewrite W3, R1. reflexivity.
  - intros N. destruct H as [H|[H|[H|[]]]]; injection H as <- <-; destruct v; try discriminate; eexists; reflexivity.
Qed.
Print Assumptions C11_unary.

(** The exact remainder of -6 by 3 is 0, which an unsigned can hold; the code computes
    (2^64 - 6) % 3 = 1.  And 6 % -4 is 2, the code gives 6. *)
Theorem C11_remainder_refuted :
  v_arith OpRem (VInt (-6)) (VUns 3) = Ok (VUns 1) /\ Z.rem (-6) 3 = 0 /\
  v_arith OpRem (VUns 6) (VInt (-4)) = Ok (VUns 6) /\ Z.rem 6 (-4) = 2.
Proof. vm_compute. auto. Qed.
Print Assumptions C11_remainder_refuted.

(** The least integer modulo -1 is 0, but evaluating it is undefined (a trap on x86). *)
Theorem C11_least_by_minus_one_refuted :
  v_arith OpRem (VInt (- 2 ^ 63)) (VInt (-1)) = UB /\ Z.rem (- 2 ^ 63) (-1) = 0.
Proof. vm_compute. auto. Qed.
Print Assumptions C11_least_by_minus_one_refuted.

(** "Never silently changes value" fails when the exact result does not fit the
    promoted type: 1 + -2 with an unsigned 1 is 2^64 - 1; division by zero and signed
    overflow are undefined rather than rejected. *)
Theorem C11_silent_change_refuted :
  v_arith OpAdd (VUns 1) (VInt (-2)) = Ok (VUns (2 ^ 64 - 1)) /\
  v_arith OpDiv (VInt (-6)) (VUns 2) = Ok (VUns (2 ^ 63 - 3)) /\
  v_arith OpDiv (VInt 1) (VInt 0) = UB /\
  v_arith OpAdd (VInt (2 ^ 63 - 1)) (VInt 1) = UB /\
  v_neg (VUns 1) = Ok (VUns (2 ^ 64 - 1)).
Proof. vm_compute. repeat split. Qed.
Print Assumptions C11_silent_change_refuted.

Example C11_example :
  v_arith OpAdd (VUns 5) (VInt (-3)) = Ok (VUns 2) /\
  v_arith OpMul (VInt (-3)) (VInt 7) = Ok (VInt (-21)) /\
  v_arith OpDiv (VInt 3) (VFlt (S754_finite false (2 ^ 63) (-62))) = Ok (VFlt (S754_finite false (3 * 2 ^ 62) (-63))) /\
  v_arith OpRem (VFlt (S754_finite true (7 * 2 ^ 61) (-62))) (VInt 2) = Ok (VFlt (S754_finite true (3 * 2 ^ 62) (-63))).
Proof. vm_compute. repeat split. Qed.

Example C11_hypotheses_example :
  vok (VUns 5) /\ vok (VInt (-3)) /\ real_of (VUns 5) = Some 5%R /\ real_of (VInt (-3)) = Some (-3)%R /\
  promoted (type_of (VUns 5)) (type_of (VInt (-3))) = Some UnsignedType /\
  ~ divides_by_zero OpAdd (-3) /\ ~ odd_remainder OpAdd (VUns 5) (VInt (-3)) /\
  vok (VUns 2) /\ real_of (VUns 2) = Some (exact_op OpAdd 5 (-3)).
Proof.
  repeat split; try (cbn; lia); unfold divides_by_zero, odd_remainder; try (intuition discriminate).
  cbn. f_equal. lra.
Qed.
