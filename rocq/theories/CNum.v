(** C / C++ library text-number conversions used by the code (C locale).
    These model the standard library, not /repo; each says which call it stands for. *)
From Verif Require Import Base.
Open Scope N_scope.

(** Decimal printing of an unsigned integer: [oss << n] and [printf("%u")].  *)
Fixpoint dec_digits (fuel : nat) (n : N) (acc : bytes) : bytes :=
  match fuel with
  | O => acc
  | S f => let acc' := digit_chr (n mod 10) :: acc in
           if n / 10 =? 0 then acc' else dec_digits f (n / 10) acc'
  end.
Definition dec_of_N (n : N) : bytes := dec_digits (S (N.size_nat n)) n [].

(** Decimal printing of a signed integer: [oss << z]. *)
Definition dec_of_Z (z : Z) : bytes :=
  if (z <? 0)%Z then "-"%char :: dec_of_N (Z.to_N (- z)) else dec_of_N (Z.to_N z).

(** Value of a run of decimal digits. *)
Definition dec_acc (acc : N) (ds : bytes) : N :=
  fold_left (fun a c => 10 * a + digit_val c) ds acc.
Definition dec_value (ds : bytes) : N := dec_acc 0 ds.

(** Longest prefix satisfying [p], and the rest. *)
Fixpoint span (p : ascii -> bool) (s : bytes) : bytes * bytes :=
  match s with
  | [] => ([], [])
  | c :: t => if p c then let (a, b) := span p t in (c :: a, b) else ([], s)
  end.

Definition skip_space (s : bytes) : bytes := snd (span is_space s).

(** Optional sign: (is negative, rest). *)
Definition take_sign (s : bytes) : bool * bytes :=
  match s with
  | c :: t => if aeqb c "-" then (true, t) else if aeqb c "+" then (false, t) else (false, s)
  | [] => (false, s)
  end.

(** [std::istringstream(frag) >> (unsigned long long)i] (libstdc++, decimal):
    skip white space, optional sign, digits; fails without digits or on overflow
    of the magnitude; a minus sign negates modulo 2^64.  Trailing text ignored. *)
Definition istream_ull (s : bytes) : option N :=
  let '(neg, t) := take_sign (skip_space s) in
  let '(ds, _) := span is_digit t in
  match ds with
  | [] => None
  | _ => let v := dec_value ds in
         if v <? 2^64 then Some (if neg then wrap64 (2^64 - v) else v) else None
  end.

(** ** Facts *)

Lemma dec_acc_app a x y : dec_acc a (x ++ y) = dec_acc (dec_acc a x) y.
Proof. unfold dec_acc. apply fold_left_app. Qed.

Lemma dec_acc_lin ds : forall a, dec_acc a ds = a * 10 ^ (N.of_nat (List.length ds)) + dec_acc 0 ds.
Proof.
  induction ds as [|c ds IH]; intros a.
  - cbn. lia.
  - unfold dec_acc in *. cbn [fold_left List.length].
    rewrite IH, (IH (10 * 0 + digit_val c)).
    rewrite Nat2N.inj_succ, N.pow_succ_r'. lia.
Qed.

Lemma dec_digits_spec fuel : forall n acc,
  n < 2 ^ N.of_nat fuel ->
  exists ds, dec_digits (S fuel) n acc = ds ++ acc /\ dec_value ds = n /\
             forallb is_digit ds = true /\ ds <> [] /\
             (forall d ds', ds = d :: ds' -> d = "0"%char -> n = 0 /\ ds' = []).
Proof.
  induction fuel as [|f IH]; intros n acc Hn.
  - assert (n = 0) by (cbn in Hn; lia). subst. exists ["0"%char].
    repeat split; try reflexivity; try congruence; intros; congruence.
  - pose proof (N.div_mod n 10 ltac:(lia)) as Hdm.
    pose proof (N.mod_lt n 10 ltac:(lia)) as Hm.
    cbn [dec_digits]. destruct (n / 10 =? 0) eqn:E.
    + assert (Hq : n / 10 = 0) by lia.
      exists [digit_chr (n mod 10)]. split; [reflexivity|]. split.
      { unfold dec_value, dec_acc. cbn [fold_left]. rewrite digit_val_chr by lia. lia. }
      split. { cbn. rewrite digit_chr_is_digit by lia. reflexivity. }
      split; [congruence|].
      intros d ds' [= <- <-] Hd. split; [|reflexivity].
      assert (Hz : digit_val (digit_chr (n mod 10)) = digit_val "0"%char) by (rewrite Hd; reflexivity).
      rewrite digit_val_chr in Hz by lia. change (digit_val "0") with 0 in Hz. lia.
    + assert (Hlt : n / 10 < 2 ^ N.of_nat f).
      { rewrite Nat2N.inj_succ, N.pow_succ_r' in Hn.
        apply N.div_lt_upper_bound; lia. }
      destruct (IH (n / 10) (digit_chr (n mod 10) :: acc) Hlt) as (ds & H1 & H2 & H3 & H4 & H5).
      exists (ds ++ [digit_chr (n mod 10)]). split.
      { cbn [dec_digits] in H1. rewrite H1, <- app_assoc. reflexivity. }
      split.
      { unfold dec_value in *. rewrite dec_acc_app. rewrite H2.
        unfold dec_acc. cbn [fold_left]. rewrite digit_val_chr by lia. lia. }
      split.
      { rewrite forallb_app, H3. cbn. rewrite digit_chr_is_digit by lia. reflexivity. }
      split. { destruct ds; cbn; congruence. }
      intros d ds' Heq Hd. destruct ds as [|d0 ds0]; [congruence|].
      cbn in Heq. injection Heq as -> <-.
      destruct (H5 d ds0 eq_refl Hd) as [Hz _]. lia.
Qed.

Lemma size_nat_bound n : n < 2 ^ N.of_nat (N.size_nat n).
Proof.
  destruct n as [|p]; [reflexivity|]. cbn [N.size_nat].
  induction p as [p IH|p IH|]; cbn [Pos.size_nat];
    try (rewrite Nat2N.inj_succ, N.pow_succ_r'; lia); reflexivity.
Qed.

Lemma dec_of_N_spec n :
  dec_value (dec_of_N n) = n /\ forallb is_digit (dec_of_N n) = true /\ dec_of_N n <> [] /\
  (forall d ds', dec_of_N n = d :: ds' -> d = "0"%char -> n = 0 /\ ds' = []).
Proof.
  destruct (dec_digits_spec (N.size_nat n) n [] (size_nat_bound n)) as (ds & H1 & H2 & H3 & H4 & H5).
  unfold dec_of_N. rewrite app_nil_r in H1. rewrite H1. auto.
Qed.

Lemma span_all p ds t : forallb p ds = true -> (match t with [] => true | c :: _ => negb (p c) end = true) ->
  span p (ds ++ t) = (ds, t).
Proof.
  induction ds as [|c ds IH]; intros H Ht; cbn in *.
  - destruct t as [|c t]; [reflexivity|]. cbn. destruct (p c); [discriminate|reflexivity].
  - apply andb_true_iff in H as [Hc Hd]. rewrite Hc, IH by assumption. reflexivity.
Qed.

Lemma span_nil p ds : forallb p ds = true -> span p ds = (ds, []).
Proof. intros H. pose proof (span_all p ds [] H eq_refl) as E. rewrite app_nil_r in E. exact E. Qed.

Lemma span_app p s : fst (span p s) ++ snd (span p s) = s.
Proof.
  induction s as [|c s IH]; [reflexivity|]. cbn. destruct (p c); [|reflexivity].
  destruct (span p s) as [a b]. cbn in *. congruence.
Qed.

Lemma digit_not_special d : is_digit d = true ->
  is_space d = false /\ aeqb d "-" = false /\ aeqb d "+" = false /\ aeqb d "]" = false /\
  aeqb d "/" = false /\ aeqb d "[" = false /\ aeqb d "\" = false.
Proof.
  intros H.
  assert (K : forallb (fun c => implb (is_digit c)
     (negb (is_space c) && negb (aeqb c "-") && negb (aeqb c "+") && negb (aeqb c "]") &&
      negb (aeqb c "/") && negb (aeqb c "[") && negb (aeqb c "\"))) all_bytes = true)
    by (vm_compute; reflexivity).
  pose proof (sweep _ K d) as S. cbv beta in S. rewrite H in S. cbn [implb] in S.
  repeat (apply andb_true_iff in S; destruct S as [S ?]).
  repeat match goal with X : negb _ = true |- _ => apply negb_true_iff in X end.
  auto 10.
Qed.

Lemma istream_ull_dec n : n < 2^64 -> istream_ull (dec_of_N n) = Some n.
Proof.
  intros Hn. destruct (dec_of_N_spec n) as (Hv & Hd & Hne & _).
  unfold istream_ull.
  destruct (dec_of_N n) as [|d ds] eqn:E; [congruence|].
  cbn [forallb] in Hd. pose proof Hd as Hd0. apply andb_true_iff in Hd as [Hd1 Hd2].
  destruct (digit_not_special d Hd1) as (Hs & Hm & Hp & _).
  unfold skip_space. cbn [span]. rewrite Hs. cbn [snd take_sign]. rewrite Hm, Hp.
  rewrite span_nil by exact Hd0. rewrite Hv.
  destruct (n <? 2^64) eqn:L; [reflexivity|lia].
Qed.
