(** C39: the JSON parser is safe and total. *)
From Verif Require Import Base CNum Float FloatText Value Convert Builder Base64 Base64Spec Base64Proofs P_Base64
  ParserInput ParserInputProofs P_ParserInput GuessFormat P_GuessFormat
  JSONParserC JSONCore JSONDriver JSONFlat Deserialize P_JSONInput JsonGrammar JSONAccept JSONSafe.
Open Scope N_scope.

(** ** Specification *)

(** Nothing but whitespace and comments, without control characters, stands before the
    first bracket. *)
Inductive spot := Outside | AfterSlash | Inside | AfterStar.
Definition control (c : ascii) : bool := (bval c <? 32) && negb (is_ws c).
Fixpoint clean (m : spot) (bs : bytes) : bool :=
  match bs with
  | [] => true
  | c :: t =>
      match m with
      | Outside => if aeqb c "[" || aeqb c "{" then true
                   else if is_ws c then clean Outside t
                   else if aeqb c "/" then clean AfterSlash t else false
      | AfterSlash => if aeqb c "*" then clean Inside t else false
      | Inside => if control c then false else if aeqb c "*" then clean AfterStar t else clean Inside t
      | AfterStar => if control c then false else if aeqb c "*" then clean AfterStar t
                     else if aeqb c "/" then clean Outside t else clean Inside t
      end
  end.

(** No string literal of the text denotes the blob tag followed by text with a brace. *)
Definition no_bad_blob (text : bytes) : Prop :=
  forall pre lit post x, text = pre ++ quoted lit ++ post -> chars byte_plain lit ((bchr 0 :: s2b "BLOB") ++ x) -> ~ In "{"%char x.

(** ** Proofs *)

Definition safe {A} (r : res A) : Prop := match r with Ok _ | Throw _ => True | _ => False end.

Lemma safe_bind {A B} (r : res A) (k : A -> res B) : safe r -> (forall a, r = Ok a -> safe (k a)) -> safe (do a <- r; k a).
Proof. destruct r; cbn; auto. Qed.

Lemma as_string_safe v : safe (as_string v).
Proof. destruct v as [|[]| | | | | | |]; exact I. Qed.
Lemma set_value_safe v b : safe (set_value v b).
Proof.
  unfold set_value. destruct (b_acts b) as [|[[]|[]|] ?]; try exact I. apply safe_bind; [apply as_string_safe|]. intros; exact I.
Qed.
Lemma finish_safe b : safe (finish b).
Proof. unfold finish. destruct (b_acts b) as [|[| |] ?]; try exact I; apply set_value_safe. Qed.
Lemma build_safe b e : safe (build b e).
Proof.
  unfold build. destruct (b_acts b) as [|a t] eqn:E; [exact I|]. destruct e; try exact I.
  - apply finish_safe.
  - destruct a; try exact I. apply finish_safe.
  - destruct a; try exact I. apply finish_safe.
  - apply set_value_safe.
Qed.

Lemma chars_len t s : chars byte_plain t s -> llen s <= llen t.
Proof.
  assert (U : forall x, llen (utf8 x) <= 4).
  { intros x. unfold utf8. destruct (x <? 128); [|destruct (x <? 2048); [|destruct (x <? 65536)]]; cbn; lia. }
  assert (Hx : forall h x, hex4 h x -> llen h = 4) by (intros h x []; reflexivity).
  induction 1 as [|u t s P _ IH|c x t s P _ IH|h x t s P Q _ IH|h1 x1 h2 x2 t s P1 P2 P3 P4 _ IH]; repeat (rewrite llen_app || rewrite llen_S).
  - reflexivity.
  - lia.
  - lia.
  - specialize (U x). apply Hx in P. lia.
  - specialize (U (65536 + (x1 - 55296) * 1024 + (x2 - 56320))). apply Hx in P1, P3. lia.
Qed.

Definition strings_ok (text : bytes) : Prop :=
  forall pre lit post t, text = pre ++ quoted lit ++ post -> chars byte_plain lit t -> safe (str_value t).

Lemma no_bad_blob_ok text : 3 * llen text < 2^32 -> no_bad_blob text -> strings_ok text.
Proof.
  intros Hl H pre lit post t E C. unfold str_value. destruct (beqb (firstn 5 t) blob_tag) eqn:T; [|exact I].
  apply beqb_eq in T. pose proof (firstn_skipn 5 t) as F. rewrite T in F. unfold blob_tag in F.
  assert (C' : chars byte_plain lit ((bchr 0 :: s2b "BLOB") ++ skipn 5 t)) by (rewrite F; exact C).
  pose proof (H pre lit post (skipn 5 t) E C') as NB.
  pose proof (C09_decode_total_partial _ NB) as D. rewrite D. cbn [rbind].
  pose proof (chars_len _ _ C) as L.
  assert (LT : llen t < 2^32 /\ 3 * llen t < 2^32).
  { subst text. unfold quoted in Hl. repeat (rewrite llen_app in Hl || rewrite llen_S in Hl). split; lia. }
  assert (LS : llen t = 5 + llen (skipn 5 t)) by (rewrite <- F at 1; rewrite llen_app; reflexivity).
  pose proof (C08_decode_size_sufficient_partial (skipn 5 t) _ ltac:(cbv zeta; unfold llen in *; lia) NB D) as S. cbv zeta in S.
  fold (llen (skipn 5 t)) in S. fold (llen (base64_meaning (skipn 5 t))) in S.
  assert (M : base64_decode_size (llen (skipn 5 t)) <= base64_decode_size (wrap32 (llen t))).
  { unfold base64_decode_size, wrap32. rewrite (N.mod_small (llen t)) by lia.
    rewrite (N.mod_small (llen (skipn 5 t) * 3)), (N.mod_small (llen t * 3)) by lia.
    assert (llen (skipn 5 t) * 3 / 4 <= llen t * 3 / 4) by (apply N.div_le_mono; lia).
    assert (llen t * 3 / 4 < 2^32 - 1) by (apply N.div_lt_upper_bound; lia).
    rewrite !N.mod_small by lia. lia. }
  rewrite (proj2 (N.ltb_ge _ _)) by lia. exact I.
Qed.

(** The parser before the root. *)
Definition spot_state (m : spot) : core :=
  match m with
  | Outside => Core SGO SGO TNone false false 0 [MDone] []
  | AfterSlash => Core SC1 SGO TNone false true 0 [MDone] []
  | Inside => Core SC2 SGO TNone false true 0 [MDone] []
  | AfterStar => Core SC3 SGO TNone false true 0 [MDone] []
  end.

Lemma clean_step m c t : clean m (c :: t) = true ->
  (exists m', kjchar (spot_state m) c = ([], Ok (spot_state m', true)) /\ clean m' t = true) \/
  (m = Outside /\ (c = "["%char \/ c = "{"%char)).
Proof.
  set (next := fun m c =>
     match m with
     | Outside => if is_ws c then Some Outside else if aeqb c "/" then Some AfterSlash else None
     | AfterSlash => if aeqb c "*" then Some Inside else None
     | Inside => if control c then None else if aeqb c "*" then Some AfterStar else Some Inside
     | AfterStar => if control c then None else if aeqb c "*" then Some AfterStar else if aeqb c "/" then Some Outside else Some Inside
     end).
  assert (N : forall m c, match next m c with Some m' => kjchar (spot_state m) c = ([], Ok (spot_state m', true)) | None => True end).
  { clear. intros m c. destruct c as [[] [] [] [] [] [] [] []]; destruct m; vm_compute; exact I || reflexivity. }
  intros H. specialize (N m c). cbn [clean] in H. destruct m; cbn [next] in N.
  - destruct (aeqb c "[") eqn:A1; [apply aeqb_eq in A1; auto|]. destruct (aeqb c "{") eqn:A2; [apply aeqb_eq in A2; auto|]. cbn [orb] in H.
    left. destruct (is_ws c); [eauto|]. destruct (aeqb c "/"); [eauto|discriminate].
  - left. destruct (aeqb c "*"); [eauto|discriminate].
  - left. destruct (control c); [discriminate|]. destruct (aeqb c "*"); eauto.
  - left. destruct (control c); [discriminate|]. destruct (aeqb c "*"); [eauto|]. destruct (aeqb c "/"); eauto.
Qed.

Lemma kcall_safe d e : (forall t, e = JString t -> safe (str_value t)) -> safe (kcall d e).
Proof.
  intros H. unfold kcall. cbv zeta.
  destruct e as [| | | | | | | | | | |t]; cbv iota; try (apply safe_bind; [apply build_safe|]; intros; exact I).
  apply safe_bind; [apply H; reflexivity|]. intros v _. apply safe_bind; [apply build_safe|]; intros; exact I.
Qed.
Lemma kcalls_safe es : forall d, Forall (fun e => forall t, e = JString t -> safe (str_value t)) es -> safe (kcalls d es).
Proof.
  induction es as [|e es IH]; intros d F; [exact I|]. inversion F; subst. cbn [kcalls].
  apply safe_bind; [apply kcall_safe; assumption|]. intros; apply IH; assumption.
Qed.
Lemma kcall_status d e d' : kcall d e = Ok d' -> cb_st d <> S_BEGIN -> cb_st d' = cb_st d.
Proof.
  unfold kcall. intros H N.
  assert (S : (match cb_st d with S_BEGIN => S_OK | s => s end) = cb_st d) by (destruct (cb_st d); congruence).
  rewrite S in H. clear S.
  destruct e as [| | | | | | | | | | |t];
    try (match type of H with rbind (build ?b ?x) _ = _ => destruct (build b x); cbn [rbind] in H; inversion H; reflexivity end).
  destruct (str_value t) as [v| | | |]; cbn [rbind] in H; try discriminate.
  match type of H with rbind (build ?b ?x) _ = _ => destruct (build b x); cbn [rbind] in H; inversion H; reflexivity end.
Qed.
Lemma kcalls_status es : forall d d', kcalls d es = Ok d' -> cb_st d <> S_BEGIN -> cb_st d' = cb_st d.
Proof.
  induction es as [|e es IH]; intros d d' H N; cbn [kcalls] in H; [now injection H as <-|].
  destruct (kcall d e) as [d1| | | |] eqn:E; cbn [rbind] in H; try discriminate.
  pose proof (kcall_status _ _ _ E N) as S. rewrite <- S. apply IH in H; [exact H|congruence].
Qed.

Lemma evok_safe h cs es : strings_ok (h ++ cs) -> Forall (evok h) es -> Forall (fun e => forall t, e = JString t -> safe (str_value t)) es.
Proof.
  intros S F. eapply Forall_impl; [|exact F]. intros e E t ->. destruct E as (pre & mid & -> & C).
  apply (S pre mid cs); [rewrite <- app_assoc; reflexivity|exact C].
Qed.

(** Once the root has begun. *)
Lemma feed_safe cs : forall h d, KI h (kd_p d) -> kd_st d <> S_BEGIN -> strings_ok (h ++ cs) -> safe (kfeed d cs).
Proof.
  induction cs as [|c cs IH]; intros h d K N S; cbn [kfeed]; destruct (klive d) eqn:L; try exact I.
  unfold klive in L. assert (St : kd_st d = S_OK) by (destruct (kd_st d); congruence). clear N L.
  pose proof (KI_char h (kd_p d) c K) as [F G]. replace (h ++ c :: cs) with ((h ++ [c]) ++ cs) in S by (rewrite <- app_assoc; reflexivity).
  unfold kd_char. destruct (kjchar (kd_p d) c) as [evs r]. cbn [fst snd] in F, G.
  pose proof (kcalls_safe evs (Cb (kd_st d) (kd_depth d) (kd_b d)) (evok_safe _ _ _ S F)) as CS.
  destruct (kcalls (Cb (kd_st d) (kd_depth d) (kd_b d)) evs) as [s| | | |] eqn:E; cbn [rbind]; try exact I; try destruct CS.
  pose proof (kcalls_status _ _ _ E ltac:(cbn; congruence)) as CT. cbn [cb_st] in CT.
  destruct r as [[p ok]| | | |]; cbn [rbind]; try (exfalso; exact G).
  rewrite CT, St. cbn [kd_st].
  destruct ok.
  - match goal with |- context [(?a =? 0)%Z] => destruct (a =? 0)%Z end.
    + unfold ksettle. cbn [kd_p kd_depth kd_b]. destruct (kjdone p) as [o p']. destruct cs; destruct o; exact I.
    + apply (IH (h ++ [c])); [exact G|cbn; discriminate|exact S].
  - destruct cs; exact I.
Qed.

Lemma KI_start m h : KI h (spot_state m).
Proof. destruct m; [apply KIdle; reflexivity|apply KComment; [auto|reflexivity]..]. Qed.

Lemma feed_start cs : forall m h b, clean m cs = true -> strings_ok (h ++ cs) ->
  safe (kfeed (Kd (spot_state m) S_BEGIN 0 b) cs).
Proof.
  induction cs as [|c cs IH]; intros m h b C S; cbn [kfeed]; destruct (klive _); try exact I.
  unfold kd_char. cbn [kd_p kd_st kd_depth kd_b]. pose proof S as S0.
  replace (h ++ c :: cs) with ((h ++ [c]) ++ cs) in S by (rewrite <- app_assoc; reflexivity).
  destruct (clean_step m c cs C) as [(m' & E & C')|(-> & B)].
  - rewrite E. cbn [kcalls rbind cb_st cb_depth cb_b kd_st]. apply (IH m' (h ++ [c])); assumption.
  - pose proof (KI_char h _ c (KI_start Outside h)) as [F G].
    destruct (kjchar (spot_state Outside) c) as [evs r] eqn:EJ. cbn [fst snd] in F, G.
    pose proof (kcalls_safe evs (Cb S_BEGIN 0 b) (evok_safe _ _ _ S F)) as CS.
    assert (Q : forall s, kcalls (Cb S_BEGIN 0 b) evs = Ok s -> cb_st s = S_OK).
    { destruct B as [-> | ->]; vm_compute in EJ; injection EJ as <- _; cbn [kcalls]; unfold kcall; cbn [cb_st cb_b cb_depth];
        intros s; match goal with |- context [build b ?x] => destruct (build b x) end; cbn [rbind]; intros [= <-]; reflexivity. }
    destruct (kcalls (Cb S_BEGIN 0 b) evs) as [s| | | |]; cbn [rbind]; try exact I; try destruct CS.
    specialize (Q s eq_refl). destruct r as [[p ok]| | | |]; cbn [rbind]; try (exfalso; exact G).
    rewrite Q. cbn [kd_st]. destruct ok.
    + match goal with |- context [(?a =? 0)%Z] => destruct (a =? 0)%Z end.
      * unfold ksettle. cbn [kd_p kd_depth kd_b]. destruct (kjdone p) as [o p']. destruct cs; destruct o; exact I.
      * apply (feed_safe cs (h ++ [c])); [exact G|cbn; discriminate|exact S].
    + destruct cs; exact I.
Qed.

(** ** C39 *)

(** Every input, whatever its bytes, ends the parser: the loops never run out of steps. *)
Theorem C39_terminates : forall (i : pinput) (fuel : nat),
  ready i -> (List.length (unread i) + 4 < fuel)%nat -> outcome (parse_json fuel i) <> Fuel.
Proof.
  intros i fuel H Hf. rewrite outcome_flat by assumption.
  pose proof (flat_nofuel (unread i)). destruct (flat_parse _) as [[? ?]| | | |]; cbn; congruence.
Qed.
Print Assumptions C39_terminates.

(** Every text below 1.4 GB with nothing but whitespace and comments before its first
    bracket, and no tagged string with a brace, yields a value or an exception: no failed
    assertion, no access outside the tables, the mode stack or the buffers, no value read
    before it is set.  Missing for the full claim: the texts excluded, which the theorems
    below refute. *)
Theorem C39_safe_partial : forall (i : pinput) (fuel : nat),
  ready i -> (List.length (unread i) + 4 < fuel)%nat ->
  clean Outside (unread i) = true -> 3 * llen (unread i) < 2^32 -> no_bad_blob (unread i) ->
  (exists v, outcome (parse_json fuel i) = Ok v) \/ (exists e, outcome (parse_json fuel i) = Throw e).
Proof.
  intros i fuel H Hf C L B. rewrite outcome_flat by assumption.
  pose proof (feed_start (unread i) Outside [] (BState [ABase true VNull] VNull false) C (no_bad_blob_ok _ L B)) as S.
  change (Kd (spot_state Outside) S_BEGIN 0 (BState [ABase true VNull] VNull false)) with kstart in S.
  unfold flat_parse. destruct (kfeed kstart (unread i)) as [[d rest]|e| | |]; cbn [rbind] in *; try destruct S.
  - destruct (kd_st d); cbn; eauto. pose proof (build_safe (kd_b d) BEndDoc) as F.
    destruct (build (kd_b d) BEndDoc); cbn [rbind drop_rest] in *; try destruct F; cbn; eauto.
  - cbn. eauto.
Qed.
Print Assumptions C39_safe_partial.

(** Texts in which \u0000 does not occur have no tagged string. *)
Lemma utf8_first y : 0 < y < 1114112 -> exists c r, utf8 y = c :: r /\ c <> bchr 0.
Proof.
  intros H. unfold utf8.
  assert (NZ : forall x, 0 < x < 256 -> bchr x <> bchr 0) by (intros x Hx E; apply (f_equal bval) in E; rewrite !bval_bchr in E by lia; lia).
  destruct (N.ltb_spec y 128); [eexists _, _; split; [reflexivity|apply NZ; lia]|].
  destruct (N.ltb_spec y 2048); [|destruct (N.ltb_spec y 65536)]; eexists _, _; (split; [reflexivity|]); apply NZ.
  - assert (y / 64 < 32) by (apply N.div_lt_upper_bound; lia). lia.
  - assert (y / 4096 < 16) by (apply N.div_lt_upper_bound; lia). lia.
  - assert (y / 262144 < 5) by (apply N.div_lt_upper_bound; lia). lia.
Qed.

Lemma hexval_0 c : hexval c = Some 0 -> c = "0"%char.
Proof.
  assert (S : forallb (fun c => match hexval c with Some 0 => aeqb c "0" | _ => true end) all_bytes = true) by (vm_compute; reflexivity).
  pose proof (sweep _ S c) as T. cbv beta in T. intros H. rewrite H in T. now apply aeqb_eq.
Qed.

Lemma no_nul_escape text : (forall a b, text <> a ++ s2b "\u0000" ++ b) -> no_bad_blob text.
Proof.
  intros N pre lit post x -> C. exfalso.
  remember ((bchr 0 :: s2b "BLOB") ++ x) as v eqn:Ev.
  inversion C as [E1 E2|u t s (c & -> & P1 & _) C1 E1 E2|c y t s P C1 E1 E2|h y t s P Sy C1 E1 E2|h1 y1 h2 y2 t s P1 P2 P3 P4 C1 E1 E2]; subst lit; subst v.
  - discriminate.
  - cbn [app] in E2. injection E2 as -> _. vm_compute in P1. apply P1. reflexivity.
  - injection E2 as E2 _. unfold short_escape in P.
    repeat match type of P with (if ?b then _ else _) = _ => destruct b; [injection P as <-; discriminate E2|] end. discriminate.
  - assert (Hy : y < 1114112) by (destruct Sy; lia).
    destruct (N.eq_dec y 0) as [Z|Z].
    + inversion P as [a b c d x1 x2 x3 x4 H1 H2 H3 H4 Eh Ey]; subst h. assert (x1 = 0 /\ x2 = 0 /\ x3 = 0 /\ x4 = 0) as (-> & -> & -> & ->) by lia.
      apply hexval_0 in H1, H2, H3, H4. subst a b c d. apply (N (pre ++ [bchr 34]) (t ++ [bchr 34] ++ post)).
      unfold quoted. rewrite <- !app_assoc. cbn [app s2b]. rewrite <- !app_assoc. reflexivity.
    + destruct (utf8_first y ltac:(lia)) as (c & r & E & NE). rewrite E in E2. injection E2 as E2 _. contradiction.
  - destruct (utf8_first (65536 + (y1 - 55296) * 1024 + (y2 - 56320)) ltac:(lia)) as (c & r & E & NE). rewrite E in E2. injection E2 as E2 _. contradiction.
Qed.

(** A case that meets the hypotheses: comments, escapes, an error in the middle. *)
Definition safe_text : bytes := s2b " /* c */ {""a\n"": [1, -2.5e3, ""x{"", tru".

Fixpoint occurs (w text : bytes) : bool :=
  beqb (firstn (List.length w) text) w || match text with [] => false | _ :: t => occurs w t end.
Lemma occurs_ok w a b : occurs w (a ++ w ++ b) = true.
Proof.
  induction a as [|c a IH].
  - cbn [app]. assert (F : firstn (List.length w) (w ++ b) = w) by (rewrite firstn_app, Nat.sub_diag, firstn_all; apply app_nil_r).
    destruct (w ++ b) eqn:E; cbn [occurs]; rewrite F, beqb_refl; reflexivity.
  - cbn [app occurs]. rewrite IH. apply orb_true_r.
Qed.

Example C39_case : ready (InMem (MInput safe_text 0)) /\ clean Outside safe_text = true /\ 3 * llen safe_text < 2^32 /\ no_bad_blob safe_text /\
  outcome (parse_json 100 (InMem (MInput safe_text 0))) = Throw RuntimeError.
Proof.
  split; [split; [vm_compute; discriminate|reflexivity]|]. split; [reflexivity|]. split; [reflexivity|]. split; [|vm_compute; reflexivity].
  apply no_nul_escape. intros a b E. pose proof (occurs_ok (s2b "\u0000") a b) as O. rewrite <- E in O. vm_compute in O. discriminate.
Qed.

(** "x[1]": the byte before the root is rejected but stays in the parse buffer, the number
    is then read from "x1" and an uninitialised value is used. *)
Theorem C39_garbage_refuted : exists text : bytes,
  outcome (parse_json 100 (InMem (MInput text 0))) = UB.
Proof. exists (s2b "x[1]"). vm_compute. reflexivity. Qed.
Print Assumptions C39_garbage_refuted.

(** A tagged string with a brace reads outside the table of the base64 decoder, although
    nothing stands before the root. *)
Theorem C39_blob_refuted : exists text : bytes, clean Outside text = true /\
  outcome (parse_json 100 (InMem (MInput text 0))) = UB.
Proof. exists (s2b "[""\u0000BLOB{""]"). vm_compute. split; reflexivity. Qed.
Print Assumptions C39_blob_refuted.
