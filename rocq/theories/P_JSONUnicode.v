(** C38: unicode escapes in JSON strings. *)
From Verif Require Import Base CNum Float FloatText Value Convert Builder ParserInput ParserInputProofs GuessFormat P_GuessFormat
  JSONParserC JSONCore JSONDriver JSONFlat Deserialize P_JSONInput JsonGrammar JsonMeaning JSONAccept JSONRead P_JSONRead.
Open Scope N_scope.

(** The document with one string, begun by [t]. *)
Definition opened (t : bytes) : bytes := "["%char :: bchr 34 :: t.

(** ** Proofs *)

Lemma one_string t s i fuel : chars byte_plain t s -> firstn 5 s <> blob_tag ->
  ready i -> unread i = opened (t ++ [bchr 34; "]"%char]) -> (List.length (unread i) + 4 < fuel)%nat ->
  outcome (parse_json fuel i) = Ok (VList [VStr s]).
Proof.
  intros Hc Hb Hi E Hf.
  assert (J : lib_json (opened (t ++ [bchr 34; "]"%char])) (TArr [TStr s])).
  { exists [], (opened (t ++ [bchr 34; "]"%char])), []. split; [now rewrite app_nil_r|]. split; [reflexivity|]. split; [|reflexivity].
    unfold opened. replace (bchr 34 :: t ++ [bchr 34; "]"%char]) with ((quoted t) ++ ["]"%char])
      by (unfold quoted; cbn [app]; rewrite <- app_assoc; reflexivity).
    apply JArr. replace (quoted t) with ([] ++ quoted t ++ []) by (now rewrite app_nil_r).
    apply JEOne; [reflexivity| |reflexivity]. apply JStr, Hc. }
  assert (V : tval (TArr [TStr s]) = Ok (VList [VStr s])).
  { rewrite tval_arr. cbn [tvals tval]. unfold str_value. apply beqb_neq in Hb. rewrite Hb. reflexivity. }
  destruct (read_document _ _ _ J I V) as (w & _ & F & _).
  rewrite outcome_flat by assumption. rewrite E, F. reflexivity.
Qed.

Definition inside (a : bytes) : kd :=
  kd_of (K SST SGO TString [MArray; MDone] a) (Cb S_OK 1 (BState [AList []; ABase true VNull] VNull false)).
Lemma flat_inside t s rest : chars byte_plain t s ->
  kfeed kstart (opened (t ++ rest)) = kfeed (inside (rev s)) rest.
Proof.
  intros Hc. unfold opened.
  change (kfeed kstart ("["%char :: bchr 34 :: t ++ rest)) with (kfeed (inside []) (t ++ rest)).
  unfold inside. erewrite kfeed_safe; [|apply feed_chars, Hc|repeat split; discriminate|reflexivity].
  now rewrite app_nil_r.
Qed.

Definition fails (r : res (kd * bytes)) : Prop := exists d x, r = Ok (d, x) /\ kd_st d = S_ERROR.

Lemma kfeed_no p c x p' rest : open_doc c -> kjchar p x = ([], Ok (p', false)) -> fails (kfeed (kd_of p c) (x :: rest)).
Proof.
  intros O J. exists (Kd p' S_ERROR (cb_depth c) (cb_b c)), rest. split; [|reflexivity].
  cbn [kfeed]. rewrite (open_live p c O). unfold kd_char. cbn [kd_of kd_p kd_st kd_depth kd_b]. rewrite J.
  cbn [kcalls rbind cb_st cb_depth cb_b kd_st]. destruct O as (_ & _ & ->). cbn [rbind]. destruct rest; reflexivity.
Qed.

Lemma kfeed_yes p c x p' rest : open_doc c -> kjchar p x = ([], Ok (p', true)) ->
  kfeed (kd_of p c) (x :: rest) = kfeed (kd_of p' c) rest.
Proof. intros O J. apply (kfeed_safe [x] p [] p' c c rest); [cbn [cfeed]; rewrite J|exact O|]; reflexivity. Qed.

Lemma kfeed_end p c : open_doc c -> k_state p <> SOK -> fails (kfeed (kd_of p c) []).
Proof.
  intros O N. cbn [kfeed]. rewrite (open_live p c O). unfold ksettle, kjdone. cbn [kd_of kd_p].
  eexists _, _. split; [reflexivity|]. destruct (k_state p); try reflexivity. congruence.
Qed.

Lemma fails_throw r : fails r -> (do (d, rest) <- r; match kd_st d with
  | S_END => do b <- build (kd_b d) BEndDoc; Ok (b_result b, rest) | _ => Throw RuntimeError end) = Throw RuntimeError.
Proof. intros (d & x & -> & E). cbn [rbind]. rewrite E. reflexivity. Qed.

(** A character in the middle of an escape. *)
Lemma no_class q b hi stk rb c : (match char_class c with Some k => trans q k = TErr | None => True end) ->
  exists p', kjchar (Core q b TString false false hi stk rb) c = ([], Ok (p', false)).
Proof.
  intros H. unfold kjchar. destruct (char_class c) as [k|]; [|eexists; reflexivity].
  unfold kadd_char. cbn [k_escaped k_comment k_type andb kbuf_push rbind quiet after snd fst k_state kset_buf].
  rewrite H. eexists. reflexivity.
Qed.

Lemma hex_cases c : match hexval c with
  | Some x => exists k, char_class c = Some k /\ hex_class k = true
  | None => match char_class c with Some k => hex_class k = false | None => True end end.
Proof.
  assert (S : forallb (fun c => match hexval c, char_class c with
     | Some x, Some k => hex_class k | Some x, None => false | None, Some k => negb (hex_class k) | None, None => true end) all_bytes = true)
    by (vm_compute; reflexivity).
  pose proof (sweep _ S c) as T. cbv beta in T. destruct (hexval c), (char_class c) as [k|]; eauto; [discriminate|].
  now apply negb_true_iff in T.
Qed.

(** Hexadecimal digits, then a decision. *)
Lemma feed_hex4 b hi stk rb c rest : open_doc c -> (hi <> 0 -> 55296 <= hi < 56320) ->
  (forall h x r, rest = h ++ r -> hex4 h x -> if hi =? 0 then 56320 <= x < 57344 else ~ (56320 <= x < 57344)) ->
  fails (kfeed (kd_of (Core SU1 b TString false false hi stk ("u"%char :: "\"%char :: rb)) c) rest).
Proof.
  intros O Hh H.
  assert (step : forall q q' rb' x r, (q = SU1 /\ q' = SU2) \/ (q = SU2 /\ q' = SU3) \/ (q = SU3 /\ q' = SU4) ->
     match hexval x with
     | Some _ => kfeed (kd_of (Core q b TString false false hi stk rb') c) (x :: r)
                 = kfeed (kd_of (Core q' b TString false false hi stk (x :: rb')) c) r
     | None => fails (kfeed (kd_of (Core q b TString false false hi stk rb') c) (x :: r))
     end).
  { intros q q' rb' x r Q. pose proof (hex_cases x) as HC. destruct (hexval x).
    - destruct HC as (k & Ek & Wk). apply kfeed_yes; [exact O|].
      apply (step_to _ _ _ _ _ _ k); [exact Ek| |discriminate].
      destruct Q as [[-> ->]|[[-> ->]|[-> ->]]]; destruct k; try discriminate; reflexivity.
    - destruct (no_class q b hi stk rb' x) as (p' & E); [|exact (kfeed_no _ _ _ _ _ O E)].
      destruct (char_class x) as [k|]; [|exact I].
      destruct Q as [[-> _]|[[-> _]|[-> _]]]; destruct k; try discriminate; reflexivity. }
  destruct rest as [|c1 r1]; [apply kfeed_end; [exact O|discriminate]|].
  pose proof (step SU1 SU2 ("u"%char :: "\"%char :: rb) c1 r1 ltac:(auto)) as S1. destruct (hexval c1) as [x1|] eqn:H1; [rewrite S1|exact S1].
  destruct r1 as [|c2 r2]; [apply kfeed_end; [exact O|discriminate]|].
  pose proof (step SU2 SU3 (c1 :: "u"%char :: "\"%char :: rb) c2 r2 ltac:(auto)) as S2. destruct (hexval c2) as [x2|] eqn:H2; [rewrite S2|exact S2].
  destruct r2 as [|c3 r3]; [apply kfeed_end; [exact O|discriminate]|].
  pose proof (step SU3 SU4 (c2 :: c1 :: "u"%char :: "\"%char :: rb) c3 r3 ltac:(auto)) as S3. destruct (hexval c3) as [x3|] eqn:H3; [rewrite S3|exact S3].
  destruct r3 as [|c4 r4]; [apply kfeed_end; [exact O|discriminate]|].
  pose proof (hex_cases c4) as HC. destruct (hexval c4) as [x4|] eqn:H4.
  2: { destruct (no_class SU4 b hi stk (c3 :: c2 :: c1 :: "u"%char :: "\"%char :: rb) c4) as (p' & E); [|exact (kfeed_no _ _ _ _ _ O E)].
       destruct (char_class c4) as [k|]; [|exact I]. destruct k; try discriminate; reflexivity. }
  specialize (H [c1; c2; c3; c4] _ r4 eq_refl (Hex4 _ _ _ _ _ _ _ _ H1 H2 H3 H4)).
  destruct HC as (k & Ek & Wk).
  destruct (hex_char _ _ H1) as (E1 & L1 & _), (hex_char _ _ H2) as (E2 & L2 & _),
    (hex_char _ _ H3) as (E3 & L3 & _), (hex_char _ _ H4) as (E4 & L4 & _).
  assert (D : exists p', kdecode_unicode (Core SU4 b TString false false hi stk (c4 :: c3 :: c2 :: c1 :: "u"%char :: "\"%char :: rb)) = Ok (p', false)).
  { unfold kdecode_unicode. cbn [k_buf]. rewrite E1, E2, E3, E4.
    rewrite !(proj2 (N.leb_gt 16 _)) by assumption. cbn [orb].
    set (x := x1 * 4096 + x2 * 256 + x3 * 16 + x4) in *.
    assert (Hx : x < 65536) by (unfold x; lia).
    destruct (surrogates x Hx) as (Sh & Sl & _). cbn [kset_buf k_high k_state k_before k_type k_escaped k_comment k_stack].
    destruct (N.eqb_spec hi 0) as [->|N].
    - cbn [negb]. rewrite (proj2 (N.ltb_ge x 128)), (proj2 (N.ltb_ge x 2048)) by lia. rewrite Sh, Sl.
      rewrite (proj2 (N.ltb_ge x 56320)) by lia. rewrite andb_false_r, (proj2 (N.leb_le 56320 x)), (proj2 (N.ltb_lt x 57344)) by lia.
      eexists. reflexivity.
    - cbn [negb]. rewrite Sl. replace ((56320 <=? x) && (x <? 57344)) with false by lia. eexists. reflexivity. }
  destruct D as (p' & D).
  assert (J : exists p2, kjchar (Core SU4 b TString false false hi stk (c3 :: c2 :: c1 :: "u"%char :: "\"%char :: rb)) c4 = ([], Ok (p2, false))).
  { unfold kjchar. rewrite Ek. eexists. destruct k; try discriminate Wk; cbn -[kdecode_unicode]; unfold kset_buf;
      cbn -[kdecode_unicode]; rewrite D; reflexivity. }
  destruct J as (p2 & J). exact (kfeed_no _ _ _ _ _ O J).
Qed.

Lemma feed_unpaired b hi stk rb c rest : open_doc c -> 55296 <= hi < 56320 ->
  (forall h x r, rest = "\"%char :: "u"%char :: h ++ r -> hex4 h x -> ~ (56320 <= x < 57344)) ->
  fails (kfeed (kd_of (Core SD1 b TString false false hi stk rb) c) rest).
Proof.
  intros O Hh H. destruct rest as [|c1 rest]; [apply kfeed_end; [exact O|discriminate]|].
  destruct (aeqb c1 "\") eqn:E1.
  - apply aeqb_eq in E1. subst c1.
    erewrite kfeed_yes; [|exact O|reflexivity].
    destruct rest as [|c2 rest]; [apply kfeed_end; [exact O|discriminate]|].
    destruct (aeqb c2 "u") eqn:E2.
    + apply aeqb_eq in E2. subst c2. erewrite kfeed_yes; [|exact O|reflexivity].
      apply feed_hex4; [exact O|auto|]. intros h x r -> Hx. change (if hi =? 0 then 56320 <= x < 57344 else ~ (56320 <= x < 57344)). destruct (N.eqb_spec hi 0); [lia|exact (H h x r eq_refl Hx)].
    + destruct (no_class SD2 b hi stk ("\"%char :: rb) c2) as (p' & E); [|exact (kfeed_no _ _ _ _ _ O E)].
      assert (S : forallb (fun c => orb (aeqb c "u") (match char_class c with Some k => match trans SD2 k with TErr => true | _ => false end | None => true end)) all_bytes = true)
        by (vm_compute; reflexivity).
      pose proof (sweep _ S c2) as T. cbv beta in T. rewrite E2 in T. cbn [orb] in T.
      destruct (char_class c2); [|exact I]. destruct (trans SD2 j); try discriminate. reflexivity.
  - destruct (no_class SD1 b hi stk rb c1) as (p' & E); [|exact (kfeed_no _ _ _ _ _ O E)].
    assert (S : forallb (fun c => orb (aeqb c "\") (match char_class c with Some k => match trans SD1 k with TErr => true | _ => false end | None => true end)) all_bytes = true)
      by (vm_compute; reflexivity).
    pose proof (sweep _ S c1) as T. cbv beta in T. rewrite E1 in T. cbn [orb] in T.
    destruct (char_class c1); [|exact I]. destruct (trans SD1 j); try discriminate. reflexivity.
Qed.

(** ** C38 *)

(** An escape decodes to the UTF-8 encoding of its code point, whatever surrounds it. *)
Theorem C38_escape : forall (h : bytes) (x : N) (t1 s1 t2 s2 : bytes) (i : pinput) (fuel : nat),
  hex4 h x -> scalar x -> chars byte_plain t1 s1 -> chars byte_plain t2 s2 ->
  firstn 5 (s1 ++ utf8 x ++ s2) <> blob_tag ->
  ready i -> unread i = opened (t1 ++ s2b "\u" ++ h ++ t2 ++ [bchr 34; "]"%char]) -> (List.length (unread i) + 4 < fuel)%nat ->
  outcome (parse_json fuel i) = Ok (VList [VStr (s1 ++ utf8 x ++ s2)]).
Proof.
  intros h x t1 s1 t2 s2 i fuel Hh Hx H1 H2 Hb Hi E Hf.
  apply (one_string (t1 ++ s2b "\u" ++ h ++ t2)); auto.
  - apply chars_app; [exact H1|]. apply (CUni _ h x t2 s2); auto.
  - rewrite E, <- !app_assoc. reflexivity.
Qed.
Print Assumptions C38_escape.

(** Two escapes that form a surrogate pair decode to the one code point they encode. *)
Theorem C38_pair : forall (h1 h2 : bytes) (x1 x2 : N) (t1 s1 t2 s2 : bytes) (i : pinput) (fuel : nat),
  hex4 h1 x1 -> 55296 <= x1 < 56320 -> hex4 h2 x2 -> 56320 <= x2 < 57344 ->
  chars byte_plain t1 s1 -> chars byte_plain t2 s2 ->
  let s := s1 ++ utf8 (65536 + (x1 - 55296) * 1024 + (x2 - 56320)) ++ s2 in
  firstn 5 s <> blob_tag ->
  ready i -> unread i = opened (t1 ++ s2b "\u" ++ h1 ++ s2b "\u" ++ h2 ++ t2 ++ [bchr 34; "]"%char]) ->
  (List.length (unread i) + 4 < fuel)%nat ->
  outcome (parse_json fuel i) = Ok (VList [VStr s]).
Proof.
  intros h1 h2 x1 x2 t1 s1 t2 s2 i fuel Hh1 Hx1 Hh2 Hx2 H1 H2 s Hb Hi E Hf.
  apply (one_string (t1 ++ s2b "\u" ++ h1 ++ s2b "\u" ++ h2 ++ t2)); auto.
  - apply chars_app; [exact H1|]. apply (CPair _ h1 x1 h2 x2 t2 s2); auto.
  - rewrite E, <- !app_assoc. reflexivity.
Qed.
Print Assumptions C38_pair.

(** A low surrogate that no high surrogate precedes is rejected, whatever follows. *)
Theorem C38_lone_low_rejected : forall (h : bytes) (x : N) (t1 s1 rest : bytes) (i : pinput) (fuel : nat),
  hex4 h x -> 56320 <= x < 57344 -> chars byte_plain t1 s1 ->
  ready i -> unread i = opened (t1 ++ s2b "\u" ++ h ++ rest) -> (List.length (unread i) + 4 < fuel)%nat ->
  outcome (parse_json fuel i) = Throw RuntimeError.
Proof.
  intros h x t1 s1 rest i fuel Hh Hx H1 Hi E Hf. rewrite outcome_flat by assumption. rewrite E. unfold flat_parse.
  rewrite (flat_inside t1 s1) by exact H1. rewrite fails_throw; [reflexivity|].
  change (s2b "\u" ++ h ++ rest) with ("\"%char :: "u"%char :: h ++ rest).
  unfold inside. erewrite kfeed_yes; [|repeat split; discriminate|reflexivity]. erewrite kfeed_yes; [|repeat split; discriminate|reflexivity].
  apply feed_hex4; [repeat split; discriminate|intros N; exfalso; apply N; reflexivity|].
  intros h' x' r Er H'. change (56320 <= x' < 57344). assert (h = h') as <-.
  { destruct Hh, H'. cbn in Er. congruence. }
  assert (x' = x) as ->; [|exact Hx]. destruct Hh. inversion H'. congruence.
Qed.
Print Assumptions C38_lone_low_rejected.

(** A high surrogate that is not followed by an escaped low surrogate is rejected,
    whatever follows instead. *)
Theorem C38_lone_high_rejected : forall (h : bytes) (x : N) (t1 s1 rest : bytes) (i : pinput) (fuel : nat),
  hex4 h x -> 55296 <= x < 56320 -> chars byte_plain t1 s1 ->
  (forall h2 x2 r, rest = s2b "\u" ++ h2 ++ r -> hex4 h2 x2 -> ~ (56320 <= x2 < 57344)) ->
  ready i -> unread i = opened (t1 ++ s2b "\u" ++ h ++ rest) -> (List.length (unread i) + 4 < fuel)%nat ->
  outcome (parse_json fuel i) = Throw RuntimeError.
Proof.
  intros h x t1 s1 rest i fuel Hh Hx H1 Hr Hi E Hf. rewrite outcome_flat by assumption. rewrite E. unfold flat_parse.
  rewrite (flat_inside t1 s1) by exact H1. rewrite fails_throw; [reflexivity|].
  change (s2b "\u" ++ h ++ rest) with ("\"%char :: "u"%char :: h ++ rest).
  unfold inside. erewrite kfeed_yes; [|repeat split; discriminate|reflexivity]. erewrite kfeed_yes; [|repeat split; discriminate|reflexivity].
  set (c := Cb S_OK 1 (BState [AList []; ABase true VNull] VNull false)). assert (O : open_doc c) by (repeat split; discriminate).
  match goal with |- fails (kfeed (kd_of ?p _) _) =>
    change p with (Core SU1 SGO TString false false 0 [MArray; MDone] ("u"%char :: "\"%char :: rev s1)) end.
  rewrite (kfeed_safe h _ [] (Core SD1 SGO TString false false x [MArray; MDone] (rev s1)) c c rest).
  2: { rewrite (feed_hex h x SGO _ _ 0 Hh _ (decode_high h x SU4 SGO _ _ Hh Hx)). cbn [k_high].
       rewrite (proj2 (N.eqb_neq x 0)) by lia. reflexivity. }
  2: exact O. 2: reflexivity.
  apply feed_unpaired; [repeat split; discriminate|exact Hx|exact Hr].
Qed.
Print Assumptions C38_lone_high_rejected.

(** Cases that meet the hypotheses. *)
Example C38_escape_example : hex4 (s2b "20AC") 8364 /\ scalar 8364 /\ chars byte_plain (s2b "\n\""") [bchr 10; bchr 34] /\
  outcome (parse_json 100 (InMem (MInput (opened (s2b "\n\""" ++ s2b "\u" ++ s2b "20AC" ++ s2b "z" ++ [bchr 34; "]"%char])) 0)))
  = Ok (VList [VStr [bchr 10; bchr 34; bchr 226; bchr 130; bchr 172; "z"%char]]).
Proof.
  split; [apply (Hex4 "2" "0" "A" "C" 2 0 10 12); reflexivity|]. split; [left; reflexivity|].
  split; [apply (CShort _ "n" 10); [reflexivity|]; apply (CShort _ (bchr 34) 34); [reflexivity|constructor]|]. vm_compute. reflexivity.
Qed.
Example C38_pair_example : hex4 (s2b "D83D") 55357 /\ hex4 (s2b "de00") 56832 /\
  outcome (parse_json 100 (InMem (MInput (opened (s2b "\uD83D\ude00" ++ [bchr 34; "]"%char])) 0)))
  = Ok (VList [VStr [bchr 240; bchr 159; bchr 152; bchr 128]]).
Proof.
  split; [apply (Hex4 "D" "8" "3" "D" 13 8 3 13); reflexivity|].
  split; [apply (Hex4 "d" "e" "0" "0" 13 14 0 0); reflexivity|]. vm_compute. reflexivity.
Qed.
Example C38_lone_example :
  outcome (parse_json 100 (InMem (MInput (opened (s2b "\ude00" ++ [bchr 34; "]"%char])) 0))) = Throw RuntimeError /\
  outcome (parse_json 100 (InMem (MInput (opened (s2b "\uD83D" ++ [bchr 34; "]"%char])) 0))) = Throw RuntimeError /\
  outcome (parse_json 100 (InMem (MInput (opened (s2b "\uD83D\uD83D" ++ [bchr 34; "]"%char])) 0))) = Throw RuntimeError.
Proof. vm_compute. repeat split. Qed.
