(** Property C10: numeric comparison is mathematical comparison. *)
From Verif Require Import Base Float Value Numeric NumericProofs NumberSpec.
From Coq Require Import Reals Lra SpecFloat.
From Flocq Require Import Core IEEE754.BinarySingleNaN.
Open Scope Z_scope.

Lemma as_ld_num v x : vok v -> num_val v = Some x ->
  exists l, as_ld v = Ok l /\ is_ldouble l /\
    match x with
    | NegInf => l = S754_infinity true
    | PosInf => l = S754_infinity false
    | Fin r => f_finite l = true /\ SF2R radix2 l = r
    end.
Proof.
  intros V N. destruct v as [| |z|n|f| | | |]; try discriminate; cbn in N; cbn [as_ld].
  - injection N as <-. cbn [vok] in V. destruct (ld_of_Z_exact z ltac:(lia)) as (A & B & C). eauto.
  - injection N as <-. cbn [vok] in V. destruct (ld_of_Z_exact (Z.of_N n) ltac:(lia)) as (A & B & C). eauto.
  - exists f. split; [reflexivity|]. split; [exact V|].
    destruct f as [s|[|]| |s m e]; try discriminate; injection N as <-; cbn; auto.
Qed.

Lemma num_compare_eq a b x : num_val a = Some x -> vcompare a b = num_compare a b.
Proof. destruct a; try discriminate; reflexivity. Qed.

Lemma num_comparable a b x y : num_val a = Some x -> num_val b = Some y -> comparable a b = true.
Proof. destruct a, b; try discriminate; reflexivity. Qed.

Lemma ld_order_ext l1 l2 x y : is_ldouble l1 -> is_ldouble l2 ->
  match x with NegInf => l1 = S754_infinity true | PosInf => l1 = S754_infinity false
             | Fin r => f_finite l1 = true /\ SF2R radix2 l1 = r end ->
  match y with NegInf => l2 = S754_infinity true | PosInf => l2 = S754_infinity false
             | Fin r => f_finite l2 = true /\ SF2R radix2 l2 = r end ->
  (ext_lt x y -> ld_order l1 l2 = -1) /\ (x = y -> ld_order l1 l2 = 0) /\ (ext_lt y x -> ld_order l1 l2 = 1).
Proof.
  intros V1 V2 H1 H2. destruct x as [|x|], y as [|y|]; cbn [ext_lt].
  all: try (subst l1 l2; repeat split; intros; try contradiction; try discriminate; reflexivity).
  all: try (destruct H2; subst l1; destruct l2; try discriminate; repeat split; intros; try contradiction; try discriminate; try reflexivity).
  all: try (destruct H1; subst l2; destruct l1; try discriminate; repeat split; intros; try contradiction; try discriminate; try reflexivity).
  destruct H1 as [F1 E1], H2 as [F2 E2]. rewrite (ld_order_finite _ _ V1 V2 F1 F2), E1, E2.
  split; [|split]; intros H.
  - rewrite Rcompare_Lt; auto.
  - injection H as ->. rewrite Rcompare_Eq; auto.
  - rewrite Rcompare_Gt; auto.
Qed.

(** Compare is the mathematical order, for all numbers other than NaN. *)
Theorem C10_compare_partial a b x y :
  vok a -> vok b -> num_val a = Some x -> num_val b = Some y ->
  (ext_lt x y -> vcompare a b = Ok (-1)) /\
  (x = y -> vcompare a b = Ok 0) /\
  (ext_lt y x -> vcompare a b = Ok 1).
Proof.
  intros Va Vb Na Nb. rewrite (num_compare_eq a b x Na). unfold num_compare.
  rewrite (num_comparable a b x y Na Nb).
  destruct (as_ld_num a x Va Na) as (l1 & -> & V1 & H1). destruct (as_ld_num b y Vb Nb) as (l2 & -> & V2 & H2).
  cbn [rbind]. destruct (ld_order_ext l1 l2 x y V1 V2 H1 H2) as (A & B & C).
  repeat split; intros H; f_equal; auto.
Qed.
Print Assumptions C10_compare_partial.

(** The six operators agree with that order. *)
Theorem C10_operators_partial a b x y :
  vok a -> vok b -> num_val a = Some x -> num_val b = Some y ->
  (v_lt a b = Ok true <-> ext_lt x y) /\ (v_gt a b = Ok true <-> ext_lt y x) /\
  (v_eq a b = Ok true <-> x = y) /\ (v_ne a b = Ok true <-> x <> y) /\
  (v_le a b = Ok true <-> ~ ext_lt y x) /\ (v_ge a b = Ok true <-> ~ ext_lt x y) /\
  (forall op, In op [v_lt; v_gt; v_eq; v_ne; v_le; v_ge] -> exists r, op a b = Ok r).
Proof.
  intros Va Vb Na Nb. destruct (C10_compare_partial a b x y Va Vb Na Nb) as (L & E & G).
  unfold v_lt, v_gt, v_eq, v_ne, v_le, v_ge.
  assert (T := ext_trichotomy x y). assert (I1 := ext_lt_irrefl x). assert (I2 := ext_lt_irrefl y).
  assert (X : ext_lt x y -> ext_lt y x -> False) by (intros P Q; exact (I1 (ext_lt_trans _ _ _ P Q))).
  assert (Nlt : ext_lt x y -> x <> y) by (intros P ->; auto).
  assert (Ngt : ext_lt y x -> x <> y) by (intros P ->; auto).
  assert (K : exists c, vcompare a b = Ok c /\ (c = -1 /\ ext_lt x y \/ c = 0 /\ x = y \/ c = 1 /\ ext_lt y x)).
  { destruct T as [T|[T|T]]; [exists (-1)|exists 0|exists 1]; auto. }
  destruct K as (c & -> & K). cbn [rbind].
  repeat match goal with |- _ /\ _ => split end; try (intros op Hin;
    destruct Hin as [<-|[<-|[<-|[<-|[<-|[<-|[]]]]]]]; eexists; unfold v_lt, v_gt, v_eq, v_ne, v_le, v_ge;
    destruct K as [(-> & K)|[(-> & K)|(-> & K)]]; rewrite ?(L K), ?(E K), ?(G K); reflexivity).
  all: destruct K as [(-> & K)|[(-> & K)|(-> & K)]]; cbn; try subst y;
    (split; intros Q; [try discriminate Q; tauto|try reflexivity; exfalso; tauto]).
Qed.
Print Assumptions C10_operators_partial.

(** So [<=] is a total order on the numbers other than NaN (antisymmetric up to equality
    of value). *)
Theorem C10_total_order_partial a b c x y z :
  vok a -> vok b -> vok c -> num_val a = Some x -> num_val b = Some y -> num_val c = Some z ->
  v_le a a = Ok true /\
  (v_le a b = Ok true \/ v_le b a = Ok true) /\
  (v_le a b = Ok true -> v_le b a = Ok true -> v_eq a b = Ok true) /\
  (v_le a b = Ok true -> v_le b c = Ok true -> v_le a c = Ok true).
Proof.
  intros Va Vb Vc Na Nb Nc.
  pose proof (C10_operators_partial a a x x Va Va Na Na) as Kaa.
  pose proof (C10_operators_partial a b x y Va Vb Na Nb) as Kab.
  pose proof (C10_operators_partial b a y x Vb Va Nb Na) as Kba.
  pose proof (C10_operators_partial b c y z Vb Vc Nb Nc) as Kbc.
  pose proof (C10_operators_partial a c x z Va Vc Na Nc) as Kac.
  destruct Kaa as (_ & _ & _ & _ & Kaa & _). destruct Kab as (_ & _ & Eab & _ & Kab & _).
  destruct Kba as (_ & _ & _ & _ & Kba & _). destruct Kbc as (_ & _ & _ & _ & Kbc & _).
  destruct Kac as (_ & _ & _ & _ & Kac & _).
  rewrite Kaa, Kab, Kba, Eab, Kbc, Kac.
  assert (T := ext_trichotomy). assert (I := ext_lt_irrefl). assert (Tr := ext_lt_trans).
  split; [apply I|]. split.
  { destruct (T x y) as [H|[H|H]]; [left|subst; left; apply I|right]; intros Q; eapply I; eapply Tr; eauto. }
  split.
  { intros H1 H2. destruct (T x y) as [H|[H|H]]; tauto. }
  intros H1 H2 H3. destruct (T x y) as [H|[H|H]]; [|subst; auto|auto].
  apply H2. eapply Tr; eauto.
Qed.
Print Assumptions C10_total_order_partial.

(** With NaN the statement is false: NaN equals every number, so equality and [<=] are
    not transitive. *)
Theorem C10_total_order_refuted :
  exists a b c, vok a /\ vok b /\ vok c /\
    v_eq a b = Ok true /\ v_eq b c = Ok true /\ v_eq a c = Ok false /\
    v_le c b = Ok true /\ v_le b a = Ok true /\ v_le c a = Ok false.
Proof.
  exists (VInt 1), (VFlt S754_nan), (VUns 2).
  repeat split; try reflexivity; cbn; lia.
Qed.
Print Assumptions C10_total_order_refuted.

(** Large unsigned against negative signed; integers beyond double precision; a float
    between two integers. *)
Example C10_compare_example :
  v_lt (VInt (-1)) (VUns (2^64 - 1)) = Ok true /\
  v_lt (VUns (2^64 - 2)) (VUns (2^64 - 1)) = Ok true /\
  v_lt (VFlt (S754_finite false (3 * 2^62) (-63))) (VInt 2) = Ok true /\
  v_gt (VFlt (S754_infinity false)) (VUns (2^64 - 1)) = Ok true /\
  v_eq (VFlt (S754_zero true)) (VInt 0) = Ok true.
Proof. vm_compute. repeat split. Qed.

Example C10_hypotheses_example :
  vok (VInt (-1)) /\ vok (VUns (2^64 - 1)) /\ vok (VFlt (S754_finite false (3 * 2^62) (-63))) /\
  num_val (VInt (-1)) = Some (Fin (-1)%R) /\
  (exists r, num_val (VFlt (S754_finite false (3 * 2^62) (-63))) = Some (Fin r)).
Proof. repeat split; try reflexivity; try (cbn; lia). eexists. reflexivity. Qed.
