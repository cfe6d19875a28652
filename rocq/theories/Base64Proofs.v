From Verif Require Import Base Base64 Base64Spec.
Open Scope N_scope.

(** ** The iterator walks over the concatenation *)

Definition it_valid (iov : iovec) (it : iov_it) : Prop :=
  it = iov_end iov \/ exists b, nth_error iov (fst it) = Some b /\ (snd it < List.length b)%nat.

Definition remaining (iov : iovec) (it : iov_it) : bytes :=
  match nth_error iov (fst it) with
  | None => []
  | Some b => skipn (snd it) b ++ List.concat (skipn (S (fst it)) iov)
  end.

Lemma skipn_nth {A} (l : list A) n x : nth_error l n = Some x -> skipn n l = x :: skipn (S n) l.
Proof.
  revert n. induction l as [|y l IH]; intros [|n] H; cbn in *; try discriminate.
  - injection H as ->. reflexivity.
  - apply IH, H.
Qed.

Lemma remaining_begin iov : remaining iov iov_begin = List.concat iov.
Proof. destruct iov; reflexivity. Qed.

Lemma it_valid_begin iov : Forall (fun b => b <> []) iov -> it_valid iov iov_begin.
Proof.
  destruct iov as [|b iov]; intros H; [left; reflexivity|]. right. exists b. split; [reflexivity|].
  inversion H; subst. destruct b; [congruence|cbn; lia].
Qed.

Lemma iov_eqb_end iov it : it_valid iov it -> iov_eqb it (iov_end iov) = true -> remaining iov it = [].
Proof.
  intros V H. unfold iov_eqb in H. apply andb_true_iff in H as [H _]. apply Nat.eqb_eq in H.
  unfold remaining. cbn in H. rewrite H.
  destruct (nth_error iov (List.length iov)) eqn:E; [|reflexivity].
  assert (List.length iov < List.length iov)%nat by (apply nth_error_Some; congruence). lia.
Qed.

Lemma iov_next_ok iov it : Forall (fun b => b <> []) iov -> it_valid iov it ->
  iov_eqb it (iov_end iov) = false ->
  exists c it', iov_next iov it = Ok (c, it') /\ it_valid iov it' /\ remaining iov it = c :: remaining iov it'.
Proof.
  intros F V H. destruct V as [->|(b & Hb & Ho)].
  { unfold iov_eqb in H. rewrite !Nat.eqb_refl in H. discriminate. }
  destruct it as [s o]; cbn [fst snd] in *.
  destruct (nth_error b o) as [c|] eqn:Hc.
  2:{ apply nth_error_None in Hc. lia. }
  unfold iov_next, iov_deref, iov_incr; cbn [fst snd]. rewrite Hb, Hc. cbn [rbind].
  exists c. unfold remaining at 1; cbn [fst snd]. rewrite Hb, (skipn_nth _ _ _ Hc).
  destruct (Nat.leb (List.length b) (S o)) eqn:L; cbn [rbind]; eexists; (split; [reflexivity|]).
  - apply Nat.leb_le in L. assert (Hend : S o = List.length b) by lia.
    rewrite Hend, skipn_all. cbn [app].
    destruct (nth_error iov (S s)) as [b'|] eqn:Hb'.
    + split.
      * right. exists b'. cbn. split; [exact Hb'|].
        assert (In b' iov) by (eapply nth_error_In; eassumption).
        rewrite Forall_forall in F. specialize (F _ H0). destruct b'; [congruence|cbn; lia].
      * rewrite (skipn_nth _ _ _ Hb'). cbn [List.concat].
        unfold remaining, fst, snd. rewrite Hb'. reflexivity.
    + assert (s < List.length iov)%nat by (apply nth_error_Some; congruence).
      apply nth_error_None in Hb'. assert (S s = List.length iov) by lia.
      split.
      * left. unfold iov_end. congruence.
      * unfold remaining. cbn [fst snd].
        destruct (nth_error iov (S s)) eqn:E2; [apply nth_error_None in Hb'; congruence|].
        rewrite H1, skipn_all. reflexivity.
  - apply Nat.leb_gt in L. split.
    + right. exists b. cbn. split; [exact Hb|lia].
    + unfold remaining. cbn [fst snd]. rewrite Hb. reflexivity.
Qed.

(** ** The encoder on a flat byte list *)

Definition brk (cpl step : N) : bool := ((0 <? cpl) && (wrap32 (step + 1) =? cpl / 4))%bool.

Fixpoint enc_list (cpl step : N) (l : bytes) : bytes :=
  match l with
  | [] => []
  | [c1] => [push_value (N.shiftr (N.land (bval c1) 252) 2);
             push_value (N.shiftl (N.land (bval c1) 3) 4); "="%char; "="%char]
  | [c1; c2] => [push_value (N.shiftr (N.land (bval c1) 252) 2);
                 push_value (N.lor (N.shiftl (N.land (bval c1) 3) 4) (N.shiftr (N.land (bval c2) 240) 4));
                 push_value (N.shiftl (N.land (bval c2) 15) 2); "="%char]
  | c1 :: c2 :: c3 :: t =>
    [push_value (N.shiftr (N.land (bval c1) 252) 2);
     push_value (N.lor (N.shiftl (N.land (bval c1) 3) 4) (N.shiftr (N.land (bval c2) 240) 4));
     push_value (N.lor (N.shiftl (N.land (bval c2) 15) 2) (N.shiftr (N.land (bval c3) 192) 6));
     push_value (N.land (bval c3) 63)] ++
    (if brk cpl step then [NL] else []) ++
    enc_list cpl (if brk cpl step then 0 else wrap32 (step + 1)) t
  end.

Lemma enc_loop_list iov cpl : Forall (fun b => b <> []) iov ->
  forall fuel it step, it_valid iov it -> (List.length (remaining iov it) < fuel)%nat ->
  enc_loop fuel iov cpl it step = Ok (enc_list cpl step (remaining iov it)).
Proof.
  intros F. induction fuel as [|f IH]; intros it step V L; [lia|]. cbn [enc_loop].
  destruct (iov_eqb it (iov_end iov)) eqn:E.
  { rewrite (iov_eqb_end _ _ V E). reflexivity. }
  destruct (iov_next_ok _ _ F V E) as (c1 & it1 & N1 & V1 & R1). rewrite N1, R1. cbn [rbind].
  destruct (iov_eqb it1 (iov_end iov)) eqn:E1.
  { rewrite (iov_eqb_end _ _ V1 E1). reflexivity. }
  destruct (iov_next_ok _ _ F V1 E1) as (c2 & it2 & N2 & V2 & R2). rewrite N2, R2. cbn [rbind].
  destruct (iov_eqb it2 (iov_end iov)) eqn:E2.
  { rewrite (iov_eqb_end _ _ V2 E2). reflexivity. }
  destruct (iov_next_ok _ _ F V2 E2) as (c3 & it3 & N3 & V3 & R3). rewrite N3, R3. cbn [rbind].
  fold (brk cpl step). rewrite IH; [reflexivity|exact V3|].
  rewrite R1, R2, R3 in L. cbn [List.length] in L. lia.
Qed.

Lemma base64_encode_list iov cpl : Forall (fun b => b <> []) iov ->
  let t := enc_list cpl 0 (List.concat iov) ++ (if 0 <? cpl then [NL] else []) in
  base64_encode iov cpl = Ok (t, wrap32 (N.of_nat (List.length t))).
Proof.
  intros F t. unfold base64_encode. rewrite enc_loop_list; [rewrite remaining_begin; reflexivity|exact F| |].
  - apply it_valid_begin, F.
  - rewrite remaining_begin. lia.
Qed.

Lemma list3_ind (P : bytes -> Prop) :
  P [] -> (forall a, P [a]) -> (forall a b, P [a; b]) ->
  (forall a b c t, P t -> P (a :: b :: c :: t)) -> forall l, P l.
Proof.
  intros H0 H1 H2 H3 l.
  enough (G : P l /\ (forall a, P (a :: l)) /\ (forall a b, P (a :: b :: l))) by apply G.
  induction l as [|x l (A & B & C)]; [repeat split; auto|]. repeat split; auto.
Qed.

(** ** Bits *)

Definition sx (b5 b4 b3 b2 b1 b0 : bool) : N := N.of_nat (bits_value [b5; b4; b3; b2; b1; b0]).

Lemma enc_bits1 b0 b1 b2 b3 b4 b5 b6 b7 :
  let c := Ascii b0 b1 b2 b3 b4 b5 b6 b7 in
  N.shiftr (N.land (bval c) 252) 2 = sx b7 b6 b5 b4 b3 b2 /\
  N.shiftl (N.land (bval c) 3) 4 = sx b1 b0 false false false false /\
  N.shiftr (N.land (bval c) 240) 4 = sx false false b7 b6 b5 b4 /\
  N.shiftl (N.land (bval c) 15) 2 = sx b3 b2 b1 b0 false false /\
  N.shiftr (N.land (bval c) 192) 6 = sx false false false false b7 b6 /\
  N.land (bval c) 63 = sx b5 b4 b3 b2 b1 b0.
Proof. destruct b0, b1, b2, b3, b4, b5, b6, b7; vm_compute; repeat split; reflexivity. Qed.

Lemma sx_lor2 a b c d e f : N.lor (sx a b false false false false) (sx false false c d e f) = sx a b c d e f.
Proof. destruct a, b, c, d, e, f; reflexivity. Qed.
Lemma sx_lor4 a b c d e f : N.lor (sx a b c d false false) (sx false false false false e f) = sx a b c d e f.
Proof. destruct a, b, c, d, e, f; reflexivity. Qed.

Lemma push_alpha a b c d e f : push_value (sx a b c d e f) = alpha [a; b; c; d; e; f].
Proof. destruct a, b, c, d, e, f; reflexivity. Qed.

(** The encoder without line breaks is RFC 4648. *)
Lemma enc_list_rfc l : enc_list 0 0 l = rfc4648 l.
Proof.
  assert (G : forall step, enc_list 0 step l = rfc4648 l); [|apply G].
  induction l as [|x|x y|x y z t IH] using list3_ind; intros step; [reflexivity| | |].
  - destruct x as [a0 a1 a2 a3 a4 a5 a6 a7].
    destruct (enc_bits1 a0 a1 a2 a3 a4 a5 a6 a7) as (A1 & A2 & _).
    cbn [enc_list]. rewrite A1, A2, !push_alpha. reflexivity.
  - destruct x as [a0 a1 a2 a3 a4 a5 a6 a7], y as [c0 c1 c2 c3 c4 c5 c6 c7].
    destruct (enc_bits1 a0 a1 a2 a3 a4 a5 a6 a7) as (A1 & A2 & _).
    destruct (enc_bits1 c0 c1 c2 c3 c4 c5 c6 c7) as (_ & _ & C3 & C4 & _).
    cbn [enc_list]. rewrite A1, A2, C3, C4, sx_lor2, !push_alpha. reflexivity.
  - destruct x as [a0 a1 a2 a3 a4 a5 a6 a7], y as [c0 c1 c2 c3 c4 c5 c6 c7], z as [d0 d1 d2 d3 d4 d5 d6 d7].
    destruct (enc_bits1 a0 a1 a2 a3 a4 a5 a6 a7) as (A1 & A2 & _).
    destruct (enc_bits1 c0 c1 c2 c3 c4 c5 c6 c7) as (_ & _ & C3 & C4 & _).
    destruct (enc_bits1 d0 d1 d2 d3 d4 d5 d6 d7) as (_ & _ & _ & _ & D5 & D6).
    cbn [enc_list]. rewrite A1, A2, C3, C4, D5, D6, sx_lor2, sx_lor4, !push_alpha.
    change (brk 0 step) with false. cbn [app]. rewrite IH.
    unfold rfc4648. cbn [flat_map bits8 app sextets map List.length].
    assert (P : padding (S (S (S (List.length t)))) = padding (List.length t)).
    { unfold padding. replace (S (S (S (List.length t)))) with (List.length t + 1 * 3)%nat by lia.
      rewrite Nat.mod_add by lia. reflexivity. }
    rewrite P. reflexivity.
Qed.

(** Removing line breaks from any encoding gives the RFC text; the breaks are
    the only difference. *)
Lemma alpha_not_nl a b c d e f : aeqb (alpha [a; b; c; d; e; f]) NL = false.
Proof. destruct a, b, c, d, e, f; reflexivity. Qed.

Definition strip_nl (s : bytes) : bytes := filter (fun c => negb (aeqb c NL)) s.

Lemma strip_nl_app a b : strip_nl (a ++ b) = strip_nl a ++ strip_nl b.
Proof. unfold strip_nl. apply filter_app. Qed.

Lemma push_value_not_nl n : aeqb (push_value n) NL = false.
Proof.
  unfold push_value. destruct (63 <? n) eqn:E; [reflexivity|].
  assert (H : forallb (fun k => negb (aeqb (nth k encoding "="%char) NL)) (seq 0 64) = true) by (vm_compute; reflexivity).
  rewrite forallb_forall in H. apply negb_true_iff, (H (N.to_nat n)). apply in_seq. lia.
Qed.

Lemma strip_push n t : strip_nl (push_value n :: t) = push_value n :: strip_nl t.
Proof. unfold strip_nl. cbn [filter]. rewrite push_value_not_nl. reflexivity. Qed.

Lemma enc_list_strip cpl l : forall step, strip_nl (enc_list cpl step l) = rfc4648 l.
Proof.
  intros step. rewrite <- enc_list_rfc.
  assert (G : forall step', strip_nl (enc_list cpl step l) = enc_list 0 step' l); [|apply G].
  revert step.
  induction l as [|x|x y|x y z t IH] using list3_ind; intros step step'; [reflexivity| | |].
  - cbn [enc_list]. rewrite !strip_push. reflexivity.
  - cbn [enc_list]. rewrite !strip_push. reflexivity.
  - cbn [enc_list]. cbn [app]. rewrite !strip_push, strip_nl_app.
    change (brk 0 step') with false. cbn [app]. rewrite (IH _ (wrap32 (step' + 1))).
    destruct (brk cpl step); reflexivity.
Qed.

(** ** Length of the text *)

Lemma enc_list_length cpl l : forall step, cpl < 2^32 -> step < 2^32 - 1 - N.of_nat (List.length l) ->
  (0 < cpl / 4 -> step < cpl / 4) ->
  N.of_nat (List.length (enc_list cpl step l)) =
  4 * ((N.of_nat (List.length l) + 2) / 3) +
  (if 0 <? cpl / 4 then (step + N.of_nat (List.length l) / 3) / (cpl / 4) else 0).
Proof.
  intros step Hc. revert step.
  induction l as [|x|x y|x y z t IH] using list3_ind; intros step Hs Hq.
  - cbn. destruct (0 <? cpl / 4) eqn:E; [|reflexivity]. rewrite N.div_small; lia.
  - cbn [enc_list List.length]. change (N.of_nat 1) with 1. change (1 / 3) with 0.
    change ((1 + 2) / 3) with 1. destruct (0 <? cpl / 4) eqn:E; [|reflexivity].
    rewrite N.add_0_r, N.div_small by lia. reflexivity.
  - cbn [enc_list List.length]. change (N.of_nat 2) with 2. change (2 / 3) with 0.
    change ((2 + 2) / 3) with 1. destruct (0 <? cpl / 4) eqn:E; [|reflexivity].
    rewrite N.add_0_r, N.div_small by lia. reflexivity.
  - cbn [List.length] in *. set (n := N.of_nat (List.length t)) in *.
    replace (N.of_nat (S (S (S (List.length t))))) with (n + 1 * 3) in * by lia.
    cbn [enc_list]. rewrite !app_length, !Nat2N.inj_add.
    assert (W : wrap32 (step + 1) = step + 1) by (unfold wrap32; apply N.mod_small; lia).
    unfold brk. rewrite W. rewrite IH.
    + replace (n + 1 * 3 + 2) with (n + 2 + 1 * 3) by lia. rewrite !N.div_add by lia.
      change (N.of_nat (List.length [_; _; _; _])) with 4.
      destruct (0 <? cpl / 4) eqn:E.
      * assert (C0 : (0 <? cpl) = true).
        { destruct (0 <? cpl) eqn:K; [reflexivity|]. assert (cpl = 0) by lia. subst. cbn in E. discriminate. }
        rewrite C0. cbn [andb]. specialize (Hq ltac:(lia)).
        destruct (step + 1 =? cpl / 4) eqn:B; cbn [List.length].
        -- assert (step + 1 = cpl / 4) by lia.
           replace (step + (n / 3 + 1)) with (0 + n / 3 + 1 * (cpl / 4)) by lia.
           rewrite N.div_add by lia. fold n. lia.
        -- fold n. replace (step + 1 + n / 3) with (step + (n / 3 + 1)) by lia. lia.
      * assert (B : (step + 1 =? cpl / 4) = false) by lia. rewrite B, andb_false_r. cbn [List.length].
        fold n. lia.
    + destruct ((0 <? cpl) && (step + 1 =? cpl / 4))%bool; fold n; lia.
    + intros K. specialize (Hq K). destruct (0 <? cpl) eqn:C0; cbn [andb]; [|assert (cpl = 0) by lia; subst; cbn in K; lia].
      destruct (step + 1 =? cpl / 4) eqn:B; lia.
Qed.

(** ** Sizes *)

Lemma brk_bound cpl s q r h m k : cpl = 4 * s + m -> m < 4 -> 0 < s ->
  r = cpl * q + k -> k < cpl -> 4 * h <= r -> h < s * (2 * (q + 1)).
Proof.
  intros -> Hm Hs -> Hk Hh.
  assert (H1 : m * q <= 3 * (s * q)).
  { assert (m <= 3 * s) by lia. rewrite N.mul_assoc. apply N.mul_le_mono_r. exact H. }
  rewrite N.mul_add_distr_r in Hh.
  replace (s * (2 * (q + 1))) with (2 * (s * q) + 2 * s) by lia.
  replace (4 * s * q) with (4 * (s * q)) in Hh by lia.
  set (P := s * q) in *. set (Q := m * q) in *. lia.
Qed.

Lemma encode_text_length cpl l : cpl < 2^32 -> 4 * N.of_nat (List.length l) + 14 < 2^32 ->
  N.of_nat (List.length (enc_list cpl 0 l ++ (if 0 <? cpl then [NL] else []))) + 1
  <= base64_encode_size (N.of_nat (List.length l)) cpl
  /\ N.of_nat (List.length (enc_list cpl 0 l ++ (if 0 <? cpl then [NL] else []))) < 2^32.
Proof.
  intros Hc Hl. rewrite app_length, Nat2N.inj_add, enc_list_length by lia.
  set (n := N.of_nat (List.length l)) in *.
  unfold base64_encode_size.
  assert (W1 : wrap32 (n * 4) = n * 4) by (unfold wrap32; apply N.mod_small; lia). rewrite W1.
  pose proof (N.div_mod (n * 4) 3 ltac:(lia)) as D1. pose proof (N.mod_lt (n * 4) 3 ltac:(lia)) as M1.
  pose proof (N.div_mod (n + 2) 3 ltac:(lia)) as D2. pose proof (N.mod_lt (n + 2) 3 ltac:(lia)) as M2.
  pose proof (N.div_mod n 3 ltac:(lia)) as D3. pose proof (N.mod_lt n 3 ltac:(lia)) as M3.
  set (r := n * 4 / 3) in *. set (g := (n + 2) / 3) in *. set (h := n / 3) in *.
  assert (W2 : wrap32 (r + 4) = r + 4) by (unfold wrap32; apply N.mod_small; lia). rewrite W2.
  destruct (0 <? cpl) eqn:E.
  - pose proof (N.div_mod (r + 4) cpl ltac:(lia)) as D4. pose proof (N.mod_lt (r + 4) cpl ltac:(lia)) as M4.
    set (q := (r + 4) / cpl) in *.
    assert (Hq : q <= r + 4) by (unfold q; apply N.div_le_upper_bound; nia).
    assert (W3 : wrap32 (q + 1) = q + 1) by (unfold wrap32; apply N.mod_small; lia). rewrite W3.
    assert (W4 : wrap32 (2 * (q + 1)) = 2 * (q + 1)) by (unfold wrap32; apply N.mod_small; lia). rewrite W4.
    assert (W5 : wrap32 (r + 4 + 2 * (q + 1)) = r + 4 + 2 * (q + 1)) by (unfold wrap32; apply N.mod_small; lia). rewrite W5.
    cbn [List.length]. change (N.of_nat 1) with 1.
    destruct (0 <? cpl / 4) eqn:E4.
    + pose proof (N.div_mod cpl 4 ltac:(lia)) as D5. pose proof (N.mod_lt cpl 4 ltac:(lia)) as M5.
      set (s := cpl / 4) in *. rewrite N.add_0_l.
      assert (Hb : h / s < 2 * (q + 1)).
      { apply N.div_lt_upper_bound; [clear - E4; lia|].
        apply (brk_bound cpl s q (r + 4) h (cpl mod 4) ((r + 4) mod cpl)); auto; clear - E4 D1 M1 D3 M3; lia. }
      split; lia.
    + split; lia.
  - assert (cpl = 0) by lia. subst. cbn [N.ltb N.compare]. change (0 / 4) with 0. change (0 <? 0) with false. cbv iota.
    assert (W5 : wrap32 (r + 4 + 1) = r + 4 + 1) by (unfold wrap32; apply N.mod_small; lia). rewrite W5.
    cbn [List.length]. change (N.of_nat 0) with 0. split; lia.
Qed.

(** ** Decoding *)

Lemma alpha_char_bits a b c d e f : char_bits (alpha [a; b; c; d; e; f]) = [a; b; c; d; e; f].
Proof. destruct a, b, c, d, e, f; vm_compute; reflexivity. Qed.

(** What one character contributes. *)
Lemma decode_fragment_spec ch : ch <> "{"%char ->
  (exists a b c d e f, char_bits ch = [a; b; c; d; e; f] /\
      decode_fragment ch = Ok (Z.of_N (sx a b c d e f))) \/
  (char_bits ch = [] /\ exists z, decode_fragment ch = Ok z /\ (z < 0)%Z).
Proof.
  set (chk := fun c =>
    (aeqb c "{" ||
     match char_bits c, decode_fragment c with
     | [x1; x2; x3; x4; x5; x6], Ok z => Z.eqb z (Z.of_N (sx x1 x2 x3 x4 x5 x6))
     | [], Ok z => (z <? 0)%Z
     | _, _ => false
     end)%bool).
  assert (K : forallb chk all_bytes = true) by (vm_compute; reflexivity).
  pose proof (sweep _ K ch) as S. clear K. intros H. unfold chk in S.
  apply orb_true_iff in S as [S|S]; [apply aeqb_eq in S; congruence|].
  destruct (char_bits ch) as [|x1 [|x2 [|x3 [|x4 [|x5 [|x6 [|? ?]]]]]]]; try discriminate;
    destruct (decode_fragment ch) as [z| | | |]; try discriminate.
  - right. split; [reflexivity|]. exists z. split; [reflexivity|lia].
  - left. exists x1, x2, x3, x4, x5, x6. split; [reflexivity|]. f_equal. lia.
Qed.

Definition phase_bits (ph : dphase) (l : list bool) : Prop :=
  match ph with
  | StepA => l = []
  | StepB r => exists a b c d e f, l = [a; b; c; d; e; f] /\ bchr r = Ascii false false f e d c b a /\ r < 256
  | StepC r => exists c d e f, l = [c; d; e; f] /\ bchr r = Ascii false false false false f e d c /\ r < 256
  | StepD r => exists e f, l = [e; f] /\ bchr r = Ascii false false false false false false f e /\ r < 256
  end.

Lemma sx_lt a b c d e f : sx a b c d e f < 64.
Proof. destruct a, b, c, d, e, f; reflexivity. Qed.

Lemma whole_bytes_short l : (List.length l < 8)%nat -> whole_bytes l = [].
Proof. do 8 (destruct l as [|? l]; [reflexivity|]). cbn. lia. Qed.

Lemma decode_loop_spec s : ~ In "{"%char s -> forall ph l, phase_bits ph l ->
  decode_loop ph s = Ok (whole_bytes (l ++ flat_map char_bits s)).
Proof.
  induction s as [|ch s IH]; intros Hin ph l HP.
  - cbn [decode_loop flat_map]. rewrite app_nil_r. rewrite whole_bytes_short; [reflexivity|].
    destruct ph; cbn in HP; [subst; cbn; lia| | |];
      repeat match goal with H : exists _, _ |- _ => destruct H as [? H] end;
      destruct HP as [-> _]; cbn; lia.
  - cbn [decode_loop flat_map].
    assert (H1 : ch <> "{"%char) by (intros ->; apply Hin; left; reflexivity).
    assert (H2 : ~ In "{"%char s) by (intros K; apply Hin; right; exact K).
    destruct (decode_fragment_spec ch H1) as [(a & b & c & d & e & f & HB & HF)|(HB & z & HF & Hz)].
    2:{ rewrite HF, HB. cbn [rbind app]. destruct (z <? 0)%Z eqn:E; [|lia]. apply IH; assumption. }
    rewrite HF, HB. cbn [rbind]. destruct (Z.of_N (sx a b c d e f) <? 0)%Z eqn:E; [lia|]. clear E.
    rewrite N2Z.id.
    destruct ph as [|r|r|r]; cbn [phase_bits] in HP.
    + subst l. cbn [app]. rewrite (IH H2 (StepB _) [a; b; c; d; e; f]); [reflexivity|].
      cbn [phase_bits]. exists a, b, c, d, e, f. split; [reflexivity|].
      destruct a, b, c, d, e, f; vm_compute; split; reflexivity.
    + destruct HP as (p1 & p2 & p3 & p4 & p5 & p6 & -> & HR & Hr).
      erewrite (IH H2 (StepC _) [c; d; e; f]).
      2:{ cbn [phase_bits]. exists c, d, e, f. split; [reflexivity|].
          destruct a, b, c, d, e, f; vm_compute; split; reflexivity. }
      cbn [rbind app whole_bytes]. f_equal. f_equal.
      rewrite <- (bval_bchr r Hr), HR. clear HR Hr.
      destruct p1, p2, p3, p4, p5, p6; destruct a, b, c, d, e, f; reflexivity.
    + destruct HP as (p3 & p4 & p5 & p6 & -> & HR & Hr).
      erewrite (IH H2 (StepD _) [e; f]).
      2:{ cbn [phase_bits]. exists e, f. split; [reflexivity|].
          destruct a, b, c, d, e, f; vm_compute; split; reflexivity. }
      cbn [rbind app whole_bytes]. f_equal. f_equal.
      rewrite <- (bval_bchr r Hr), HR. clear HR Hr.
      destruct p3, p4, p5, p6; destruct a, b, c, d, e, f; reflexivity.
    + destruct HP as (p5 & p6 & -> & HR & Hr).
      erewrite (IH H2 StepA []); [|reflexivity].
      cbn [rbind app whole_bytes]. f_equal. f_equal.
      rewrite <- (bval_bchr r Hr), HR. clear HR Hr.
      destruct p5, p6; destruct a, b, c, d, e, f; reflexivity.
Qed.

Lemma base64_decode_meaning s : ~ In "{"%char s -> base64_decode s = Ok (base64_meaning s).
Proof. intros H. unfold base64_decode. rewrite (decode_loop_spec s H StepA []); reflexivity. Qed.

(** ** Meaning of an encoding *)

Lemma meaning_strip s : base64_meaning (strip_nl s) = base64_meaning s.
Proof.
  unfold base64_meaning. f_equal. induction s as [|c s IH]; [reflexivity|].
  unfold strip_nl in *. cbn [filter flat_map]. destruct (aeqb c NL) eqn:E; cbn [negb].
  - apply aeqb_eq in E. subst c. change (char_bits NL) with (@nil bool). exact IH.
  - cbn [flat_map]. rewrite IH. reflexivity.
Qed.

Lemma rfc_char_bits l : flat_map char_bits (map alpha (sextets l)) = List.concat (sextets l).
Proof.
  enough (G : forall n l, (List.length l < n)%nat -> flat_map char_bits (map alpha (sextets l)) = List.concat (sextets l))
    by (apply (G (S (List.length l))); lia).
  clear l. induction n as [|n IH]; intros l L; [lia|].
  destruct l as [|b5 [|b4 [|b3 [|b2 [|b1 [|b0 t]]]]]]; try reflexivity;
    try (cbn [sextets map flat_map List.concat firstn app]; rewrite ?alpha_char_bits; reflexivity).
  cbn [sextets map flat_map List.concat]. rewrite alpha_char_bits, IH; [reflexivity|]. cbn in L. lia.
Qed.

Lemma meaning_rfc data : base64_meaning (rfc4648 data) = data.
Proof.
  unfold base64_meaning, rfc4648. rewrite flat_map_app, rfc_char_bits.
  assert (P : flat_map char_bits (padding (List.length data)) = []).
  { unfold padding. destruct (Nat.modulo (List.length data) 3) as [|[|[|?]]]; reflexivity. }
  rewrite P, app_nil_r. clear P.
  induction data as [|x|x y|x y z t IH] using list3_ind; [reflexivity| | |];
    repeat match goal with c : ascii |- _ => destruct c end; try reflexivity.
  cbn [flat_map bits8 app sextets List.concat whole_bytes]. rewrite IH. reflexivity.
Qed.

(** No encoded text contains the one character the decoder cannot handle. *)
Lemma push_value_ok n : push_value n <> "{"%char.
Proof.
  unfold push_value. destruct (63 <? n) eqn:E; [discriminate|].
  assert (H : forallb (fun k => negb (aeqb (nth k encoding "="%char) "{")) (seq 0 64) = true) by (vm_compute; reflexivity).
  rewrite forallb_forall in H. apply aeqb_neq, negb_true_iff, (H (N.to_nat n)). apply in_seq. lia.
Qed.

Lemma enc_list_no_brace cpl l : forall step, ~ In "{"%char (enc_list cpl step l).
Proof.
  induction l as [|x|x y|x y z t IH] using list3_ind; intros step H; cbn [enc_list] in H.
  - exact H.
  - cbn [In] in H. intuition (try discriminate); eapply push_value_ok; eassumption.
  - cbn [In] in H. intuition (try discriminate); eapply push_value_ok; eassumption.
  - cbn [app In] in H. repeat (destruct H as [H|H]; [eapply push_value_ok; eassumption|]).
    apply in_app_or in H as [H|H]; [|eapply IH; eassumption].
    destruct (brk cpl step); cbn in H; [|exact H]. destruct H as [H|[]]. discriminate.
Qed.

Lemma roundtrip_lemma iov cpl : Forall (fun b => b <> []) iov ->
  exists t, base64_encode iov cpl = Ok (t, wrap32 (N.of_nat (List.length t))) /\
            strip_nl t = rfc4648 (List.concat iov) /\
            base64_decode t = Ok (List.concat iov).
Proof.
  intros F. pose proof (base64_encode_list iov cpl F) as E. cbn zeta in E.
  eexists. split; [exact E|].
  assert (S : strip_nl (enc_list cpl 0 (List.concat iov) ++ (if 0 <? cpl then [NL] else [])) = rfc4648 (List.concat iov)).
  { rewrite strip_nl_app, enc_list_strip. destruct (0 <? cpl); cbn; apply app_nil_r. }
  split; [exact S|].
  rewrite base64_decode_meaning.
  - rewrite <- meaning_strip, S, meaning_rfc. reflexivity.
  - intros H. apply in_app_or in H as [H|H]; [eapply enc_list_no_brace, H|].
    destruct (0 <? cpl); cbn in H; [destruct H as [H|[]]; discriminate|exact H].
Qed.

(** Decoded length. *)
Lemma whole_bytes_length l : (8 * List.length (whole_bytes l) <= List.length l)%nat.
Proof.
  enough (G : forall n l, (List.length l < n)%nat -> (8 * List.length (whole_bytes l) <= List.length l)%nat)
    by (apply (G (S (List.length l))); lia).
  clear l. induction n as [|n IH]; intros l L; [lia|].
  destruct l as [|? [|? [|? [|? [|? [|? [|? [|? t]]]]]]]]; try (cbn; lia).
  cbn [whole_bytes List.length] in *. specialize (IH t ltac:(lia)). lia.
Qed.

Lemma char_bits_length c : (List.length (char_bits c) <= 6)%nat.
Proof. unfold char_bits. destruct (find_index c alphabet); cbn; lia. Qed.

Lemma meaning_length s : (4 * List.length (base64_meaning s) <= 3 * List.length s)%nat.
Proof.
  unfold base64_meaning. pose proof (whole_bytes_length (flat_map char_bits s)) as W.
  assert (L : (List.length (flat_map char_bits s) <= 6 * List.length s)%nat).
  { clear W. induction s as [|c s IH]; [cbn; lia|]. cbn [flat_map List.length]. rewrite app_length.
    pose proof (char_bits_length c). lia. }
  lia.
Qed.

Lemma decode_fragment_ub ch : decode_fragment ch = UB <-> ch = "{"%char.
Proof.
  split; [|intros ->; reflexivity]. intros H.
  destruct (aeqb ch "{") eqn:E; [apply aeqb_eq, E|]. apply aeqb_neq in E.
  destruct (decode_fragment_spec ch E) as [(a & b & c & d & e & f & _ & HF)|(_ & z & HF & _)]; congruence.
Qed.
