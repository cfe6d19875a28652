(** C04: JSON parsing does not depend on how the bytes arrive. *)
From Verif Require Import Base CNum Float Value Convert Builder ParserInput ParserInputProofs P_ParserInput GuessFormat P_GuessFormat
  JSONParserC JSONCore JSONDriver JSONFlat Deserialize.
Open Scope N_scope.

(** What the caller sees: the value, or the way it failed. *)
Definition outcome {D I} (r : res (value * D * I)) : res value := do (v, d, i) <- r; Ok v.

(** An input ready to be parsed: usable, and memory below 4 GiB. *)
Definition ready (i : pinput) : Prop :=
  usable i /\ match i with InMem m => llen (mi_data m) < 2^32 | InStream _ => True end.

(** ** Proofs *)

Lemma in_getptr_end i : usable i -> unread i = [] -> exists i1 r, in_getptr i 0 = Ok (r, i1) /\ fst r = None /\ usable i1 /\ unread i1 = [] /\
   match i with InMem m => i1 = InMem m | InStream _ => exists s, i1 = InStream s end.
Proof.
  intros U E. destruct i as [m|s]; cbn [usable unread in_getptr] in *.
  - unfold mi_getptr. destruct (llen (mi_data m) <? mi_off m) eqn:Q; [lia|]. cbn [rbind].
    pose proof (llen_drop (mi_off m) (mi_data m)) as L. rewrite E in L. unfold llen at 1 in L. cbn in L.
    eexists _, _. split; [reflexivity|]. cbn [fst usable unread].
    destruct (0 <? llen (mi_data m) - mi_off m) eqn:Q2; [lia|]. auto.
  - destruct U as (W & Sm & FR & FE).
    destruct (getptr_spec s 0 3 W Sm ltac:(lia) ltac:(lia))
      as (r & s1 & v & E1 & V1 & W1 & S1 & P1 & F1 & N1 & VN & VS & D1 & X1).
    rewrite E1. cbn [rbind]. exists (InStream s1), r. split; [reflexivity|].
    rewrite E in P1. destruct v as [b|].
    + destruct (VS b eq_refl) as [Eb NB]. exfalso. unfold pending in P1. apply app_eq_nil in P1 as [P1 _]. congruence.
    + cbn [unread usable]. split; [|split; [split; [exact W1|split; [exact S1|split; [auto|auto]]]|split; [exact P1|eauto]]].
      unfold si_view in V1. destruct (fst r); [|reflexivity]. destruct (_ <? _); discriminate.
Qed.

Lemma pinput_next i : ready i -> exists v i1, in_view i = Ok (v, i1) /\
    match v with
    | None => unread i = [] /\ ready i1 /\ unread i1 = []
    | Some cs => cs <> [] /\ exists rest, unread i = cs ++ rest /\
        forall n, n <= llen cs -> exists i2, in_release i1 n = Ok i2 /\ ready i2 /\ unread i2 = drop n (unread i)
    end.
Proof.
  intros [U M]. unfold in_view. destruct (unread i) as [|c0 t0] eqn:EU.
  - destruct (in_getptr_end i U EU) as (i1 & r & -> & E1 & U1 & E2 & K). cbn [rbind]. rewrite E1.
    exists None, i1. split; [reflexivity|]. split; [reflexivity|]. split; [|exact E2]. split; [exact U1|].
    destruct i; [subst i1; exact M|]. destruct K as [s1 ->]. exact I.
  - destruct (in_getptr_spec i 0 U ltac:(lia) ltac:(congruence)) as (i1 & E1 & U1 & R1 & Pos & Enough & Le). rewrite EU in R1.
    pose proof E1 as E1'. rewrite E1. cbn [rbind fst snd]. destruct (in_len i1 =? 0) eqn:Z; [lia|].
    destruct i1 as [m1|s1]; cbn [in_ptr in_len usable unread] in *.
    + rewrite llen_drop in *. destruct (llen (mi_data m1) <? mi_off m1 + (llen (mi_data m1) - mi_off m1)) eqn:Q; [lia|].
      rewrite (take_all (llen (mi_data m1) - mi_off m1) (drop (mi_off m1) (mi_data m1))) by (rewrite llen_drop; lia).
      assert (Em : i = InMem m1).
      { destruct i as [m|s]; cbn [in_getptr] in E1'.
        - destruct (mi_getptr m); cbn [rbind] in E1'; try discriminate. injection E1' as _ <-. reflexivity.
        - destruct (si_getptr 3 s 0) as [[? ?]| | | |]; cbn [rbind] in E1'; discriminate. }
      subst i. eexists _, _. split; [reflexivity|]. split; [rewrite R1; discriminate|].
      exists []. split; [rewrite app_nil_r; symmetry; exact R1|]. intros n Hn. cbn [in_release mi_release].
      eexists. split; [reflexivity|].
      assert (Ln : n <= llen (mi_data m1) - mi_off m1) by (rewrite llen_drop in Hn; exact Hn).
      assert (Wr : wrap32 (mi_off m1 + n) = mi_off m1 + n) by (unfold wrap32; apply N.mod_small; lia).
      unfold ready, mi_release. cbn [usable unread mi_off mi_data]. rewrite Wr.
      repeat split; auto; try lia. rewrite <- drop_drop, R1. reflexivity.
    + destruct U1 as (W1 & Sm1 & FR1 & FE1). pose proof W1 as (Wa & _).
      destruct (llen (si_buf s1) <? si_off s1 + si_num s1) eqn:Q; [lia|].
      fold (view s1). eexists _, _. split; [reflexivity|].
      split. { intros Ev. pose proof (view_len s1 W1) as VL. rewrite Ev in VL. cbn in VL. lia. }
      exists (src_data (si_src s1)). split; [rewrite <- R1; reflexivity|]. intros n Hn.
      rewrite view_len in Hn by exact W1.
      destruct (release_spec s1 n W1 Hn) as (s2 & E2 & W2 & B2 & P2 & N2 & Ee2 & Sr2).
      cbn [in_release]. rewrite E2. cbn [rbind]. eexists. split; [reflexivity|].
      unfold ready. cbn [usable unread]. rewrite <- R1, P2. unfold small in *. rewrite B2, Ee2, Sr2. auto 10.
Qed.

Lemma chunks_next l : Forall (fun c => c <> []) l -> exists v i1, chunks_view l = Ok (v, i1) /\
    match v with
    | None => List.concat l = [] /\ Forall (fun c => c <> []) i1 /\ List.concat i1 = []
    | Some cs => cs <> [] /\ exists rest, List.concat l = cs ++ rest /\
        forall n, n <= llen cs -> exists i2, chunks_release i1 n = Ok i2 /\ Forall (fun c => c <> []) i2 /\
           List.concat i2 = drop n (List.concat l)
    end.
Proof.
  intros F. unfold chunks_view. eexists _, _. split; [reflexivity|]. destruct l as [|c t]; [auto|].
  inversion F as [|? ? Hc Ft]; subst. split; [exact Hc|]. exists (List.concat t). split; [reflexivity|].
  intros n Hn. unfold chunks_release. eexists. split; [reflexivity|]. cbn [List.concat]. rewrite drop_app.
  replace (n - llen c) with 0 by lia. rewrite drop_0.
  destruct (drop n c) as [|x r]; [split; [exact Ft|reflexivity]|]. split; [constructor; [discriminate|exact Ft]|reflexivity].
Qed.

Lemma parse_json_flat i fuel : ready i -> (List.length (unread i) + 4 < fuel)%nat ->
  match flat_parse (unread i) with
  | Ok (v, rest) => exists d1 i1, parse_json fuel i = Ok (v, d1, i1) /\ d_st d1 = S_DONE /\ ready i1 /\ unread i1 = rest
  | r => parse_json fuel i = match r with Ok _ => UB | Throw e => Throw e | UB => UB | Abort => Abort | Fuel => Fuel end
  end.
Proof. intros. apply (pv_flat pinput in_view in_release ready unread pinput_next); assumption. Qed.

Lemma parse_chunks_flat l fuel : Forall (fun c => c <> []) l -> (List.length (List.concat l) + 4 < fuel)%nat ->
  match flat_parse (List.concat l) with
  | Ok (v, rest) => exists d1 i1, parse_json_chunks fuel l = Ok (v, d1, i1) /\ d_st d1 = S_DONE /\
      Forall (fun c => c <> []) i1 /\ List.concat i1 = rest
  | r => parse_json_chunks fuel l = match r with Ok _ => UB | Throw e => Throw e | UB => UB | Abort => Abort | Fuel => Fuel end
  end.
Proof. intros. apply (pv_flat (list bytes) chunks_view chunks_release (Forall (fun c => c <> [])) (@List.concat ascii) chunks_next); assumption. Qed.

Definition drop_rest (r : res (value * bytes)) : res value := do (v, rest) <- r; Ok v.

Lemma outcome_flat i fuel : ready i -> (List.length (unread i) + 4 < fuel)%nat ->
  outcome (parse_json fuel i) = drop_rest (flat_parse (unread i)).
Proof.
  intros H Hf. pose proof (parse_json_flat i fuel H Hf) as P. destruct (flat_parse (unread i)) as [[v r]| | | |];
    [destruct P as (? & ? & -> & _); reflexivity| | | |]; rewrite P; reflexivity.
Qed.

Lemma outcome_chunks l fuel : Forall (fun c => c <> []) l -> (List.length (List.concat l) + 4 < fuel)%nat ->
  outcome (parse_json_chunks fuel l) = drop_rest (flat_parse (List.concat l)).
Proof.
  intros H Hf. pose proof (parse_chunks_flat l fuel H Hf) as P. destruct (flat_parse (List.concat l)) as [[v r]| | | |];
    [destruct P as (? & ? & -> & _); reflexivity| | | |]; rewrite P; reflexivity.
Qed.

(** ** C04 *)

(** Any two ways of cutting the same bytes into non-empty chunks give the same outcome,
    and so does one chunk with everything; the unread bytes are the same as well. *)
Theorem C04_chunks_independent : forall (l1 l2 : list bytes) (fuel : nat),
  Forall (fun c => c <> []) l1 -> Forall (fun c => c <> []) l2 -> List.concat l1 = List.concat l2 ->
  (List.length (List.concat l1) + 4 < fuel)%nat ->
  outcome (parse_json_chunks fuel l1) = outcome (parse_json_chunks fuel l2) /\
  outcome (parse_json_chunks fuel l1) <> Fuel /\
  (forall v d1 r1, parse_json_chunks fuel l1 = Ok (v, d1, r1) -> exists d2 r2,
     parse_json_chunks fuel l2 = Ok (v, d2, r2) /\ List.concat r1 = List.concat r2).
Proof.
  intros l1 l2 fuel F1 F2 E Hf.
  split; [rewrite !outcome_chunks, E by (try rewrite <- E; assumption); reflexivity|]. split.
  - rewrite outcome_chunks by assumption. pose proof (flat_nofuel (List.concat l1)). destruct (flat_parse _) as [[? ?]| | | |]; cbn; congruence.
  - intros v d1 r1 H. pose proof (parse_chunks_flat l1 fuel F1 Hf) as P1. rewrite E in Hf.
    pose proof (parse_chunks_flat l2 fuel F2 Hf) as P2. rewrite E in P1.
    destruct (flat_parse (List.concat l2)) as [[w rest]| | | |]; try congruence.
    destruct P1 as (d1' & i1' & K1 & _ & _ & R1), P2 as (d2 & i2 & K2 & _ & _ & R2). rewrite H in K1. injection K1 as -> -> ->.
    eexists _, _. split; [exact K2|congruence].
Qed.
Print Assumptions C04_chunks_independent.

(** Memory and buffered streams (with any buffer size, reads short only at the end) are
    no different from handing over all bytes at once.  Missing for the full claim: a
    stream whose reads may be short earlier, for which it is false. *)
Theorem C04_input_independent_partial : forall (i : pinput) (l : list bytes) (fuel : nat),
  ready i -> Forall (fun c => c <> []) l -> List.concat l = unread i ->
  (List.length (unread i) + 4 < fuel)%nat ->
  outcome (parse_json fuel i) = outcome (parse_json_chunks fuel l) /\ outcome (parse_json fuel i) <> Fuel.
Proof.
  intros i l fuel H F E Hf. rewrite outcome_flat, outcome_chunks, E by (try rewrite E; assumption). split; [reflexivity|].
  pose proof (flat_nofuel (unread i)). destruct (flat_parse _) as [[? ?]| | | |]; cbn; congruence.
Qed.
Print Assumptions C04_input_independent_partial.

Definition sample : bytes := s2b " {""a"": [1, -2.5e1, ""x\u00e9"", true], ""b"": null} tail".

Example C04_chunks_example :
  outcome (parse_json_chunks 100 [s2b " {""a"": [1, -2."; s2b "5e1, ""x\u0"; s2b "0e9"", true], ""b"": null} tail"]) =
  Ok (VMap [(s2b "a", VList [VUns 1; VFlt (ld_of_d (S754_finite true 7036874417766400 (-48)));
                             VStr ["x"%char; bchr 195; bchr 169]; VBool true]);
            (s2b "b", VNull)]) /\
  outcome (parse_json_chunks 100 (List.map (fun c => [c]) sample)) = outcome (parse_json_chunks 100 [sample]).
Proof. vm_compute. split; reflexivity. Qed.

Example C04_stream_example : ready (InStream (si_new 3 (Source sample []))) /\ ready (InMem (MInput sample 0)) /\
  outcome (parse_json 100 (InStream (si_new 3 (Source sample [])))) = outcome (parse_json 100 (InMem (MInput sample 0))).
Proof.
  split; [|split].
  - split; [|exact I]. cbn [usable]. split; [|split; [|split]].
    + unfold wf. vm_compute. split; [discriminate|split; [reflexivity|reflexivity]].
    + unfold small. vm_compute. discriminate.
    + constructor.
    + discriminate.
  - split; vm_compute; [discriminate|reflexivity].
  - vm_compute. reflexivity.
Qed.

(** A stream that returns fewer bytes than asked before its end: the rest of the
    document is lost and the same bytes are rejected. *)
Theorem C04_input_independent_refuted : exists (data : bytes) (limits : list (option N)) (v : value),
  outcome (parse_json 100 (InStream (si_new 64 (Source data [])))) = Ok v /\
  outcome (parse_json 100 (InStream (si_new 64 (Source data limits)))) = Throw RuntimeError.
Proof. exists (s2b "[1, 2]"), [Some 3]. eexists. vm_compute. split; reflexivity. Qed.
Print Assumptions C04_input_independent_refuted.
