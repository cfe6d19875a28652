(** The parser of lib/json on sentences of the JSON grammar (proof device; the model is
    JSONParserC.v, the grammar JsonGrammar.v). *)
From Verif Require Import Base CNum Float FloatText FloatTextProofs ParserInput JSONParserC JSONCore JsonGrammar.
Open Scope N_scope.

(** ** Feeding characters that are all accepted *)

Fixpoint cfeed (s : core) (cs : bytes) : option (list jev * core) :=
  match cs with
  | [] => Some ([], s)
  | c :: t =>
      match kjchar s c with
      | (e, Ok (s1, true)) => match cfeed s1 t with Some (e2, s2) => Some (e ++ e2, s2) | None => None end
      | _ => None
      end
  end.

Lemma cfeed_app s a b e1 s1 : cfeed s a = Some (e1, s1) ->
  cfeed s (a ++ b) = match cfeed s1 b with Some (e2, s2) => Some (e1 ++ e2, s2) | None => None end.
Proof.
  revert s e1 s1. induction a as [|c a IH]; intros s e1 s1 H; cbn [cfeed app] in *.
  - injection H as <- <-. destruct (cfeed s b) as [[? ?]|]; reflexivity.
  - destruct (kjchar s c) as [e r]. destruct r as [[s2 o]| | | |]; try discriminate. destruct o; [|discriminate].
    destruct (cfeed s2 a) as [[e3 s3]|] eqn:E; [|discriminate]. injection H as <- <-.
    rewrite (IH _ _ _ E). destruct (cfeed s3 b) as [[? ?]|]; [rewrite app_assoc|]; reflexivity.
Qed.

Lemma cfeed_step s c t e s1 e2 s2 : kjchar s c = (e, Ok (s1, true)) -> cfeed s1 t = Some (e2, s2) ->
  cfeed s (c :: t) = Some (e ++ e2, s2).
Proof. intros H K. cbn [cfeed]. now rewrite H, K. Qed.

Lemma cfeed_trans s a b e1 s1 e2 s2 : cfeed s a = Some (e1, s1) -> cfeed s1 b = Some (e2, s2) ->
  cfeed s (a ++ b) = Some (e1 ++ e2, s2).
Proof. intros H K. rewrite (cfeed_app _ _ _ _ _ H), K. reflexivity. Qed.

(** A parser outside escapes, comments and surrogate pairs. *)
Definition K q b ty stk rb : core := Core q b ty false false 0 stk rb.

Definition is_white (k : jclass) : bool := match k with C_SPACE | C_WHITE => true | _ => false end.

Lemma step_to q b ty stk rb c k q' h : char_class c = Some k -> trans q k = To q' ->
  (ty = TNone -> is_white k = false) ->
  kjchar (Core q b ty false false h stk rb) c = ([], Ok (Core q' b ty false false h stk (c :: rb), true)).
Proof.
  intros Hc Ht Hw. unfold kjchar. rewrite Hc. unfold kadd_char. cbn [k_escaped k_comment k_type].
  replace (match ty with TNone => true | _ => false end && match k with C_SPACE | C_WHITE => true | _ => false end) with false.
  - cbn. rewrite Ht. reflexivity.
  - destruct ty; try reflexivity. specialize (Hw eq_refl). destruct k; try discriminate; reflexivity.
Qed.

Lemma ws_class c : is_ws c = true -> exists k, char_class c = Some k /\ is_white k = true.
Proof.
  assert (S : forallb (fun c => implb (is_ws c) (match char_class c with Some k => is_white k | None => false end)) all_bytes = true)
    by (vm_compute; reflexivity).
  pose proof (sweep _ S c) as T. cbv beta in T. intros H. rewrite H in T. cbn in T.
  destruct (char_class c) as [k|]; [|discriminate]. eauto.
Qed.

(** Whitespace between tokens. *)
Definition idle (q : jstate) : bool := match q with SGO | SOB | SKE | SCO | SVA | SAR | SOK => true | _ => false end.
Lemma feed_ws q b stk rb w : idle q = true -> wsp w -> cfeed (K q b TNone stk rb) w = Some ([], K q b TNone stk rb).
Proof.
  intros Hq. unfold wsp. induction w as [|c w IH]; cbn [forallb]; intros H; [reflexivity|].
  apply andb_true_iff in H as [Hc Hw]. destruct (ws_class c Hc) as (k & Ek & Wk).
  replace (Some ([], K q b TNone stk rb)) with (Some ([] ++ @nil jev, K q b TNone stk rb)) by reflexivity.
  eapply cfeed_step; [|exact (IH Hw)].
  unfold kjchar. rewrite Ek. unfold kadd_char, K. destruct k; try discriminate; destruct q; try discriminate; reflexivity.
Qed.

(** ** Unicode escapes *)

(** Checking all numbers below [2^k]. *)
Fixpoint allp (k : nat) (base : N) (P : N -> bool) : bool :=
  match k with
  | O => P base
  | S k' => allp k' base P && allp k' (base + 2 ^ N.of_nat k') P
  end.
Lemma allp_ok P : forall k base x, allp k base P = true -> base <= x < base + 2 ^ N.of_nat k -> P x = true.
Proof.
  induction k as [|k IH]; intros base x H Hx.
  - cbn in Hx. replace x with base by lia. exact H.
  - cbn [allp] in H. apply andb_true_iff in H as [H1 H2].
    rewrite Nat2N.inj_succ, N.pow_succ_r' in Hx.
    destruct (N.lt_ge_cases x (base + 2 ^ N.of_nat k)); [apply (IH base); [exact H1|lia]|apply (IH (base + 2 ^ N.of_nat k)); [exact H2|lia]].
Qed.
Lemma below k P x : allp k 0 P = true -> x < 2 ^ N.of_nat k -> P x = true.
Proof. intros H Hx. apply (allp_ok P k 0); [exact H|lia]. Qed.

Lemma lor_cont x : x < 64 -> N.lor x 128 = 128 + x.
Proof. intros H. apply N.eqb_eq. revert H. apply (below 6 (fun x => N.lor x 128 =? 128 + x)). reflexivity. Qed.
Lemma lor_2 x : x < 32 -> N.lor x 192 = 192 + x.
Proof. intros H. apply N.eqb_eq. revert H. apply (below 5 (fun x => N.lor x 192 =? 192 + x)). reflexivity. Qed.
Lemma lor_3 x : x < 16 -> N.lor x 224 = 224 + x.
Proof. intros H. apply N.eqb_eq. revert H. apply (below 4 (fun x => N.lor x 224 =? 224 + x)). reflexivity. Qed.
Lemma lor_4 x : x < 8 -> N.lor x 240 = 240 + x.
Proof. intros H. apply N.eqb_eq. revert H. apply (below 3 (fun x => N.lor x 240 =? 240 + x)). reflexivity. Qed.
Lemma land_63 x : N.land x 63 = x mod 64.
Proof. change 63 with (N.ones 6). apply N.land_ones. Qed.
Lemma cont_byte x k : N.lor (N.land (N.shiftr x (6 * k)) 63) 128 = 128 + x / 2 ^ (6 * k) mod 64.
Proof. rewrite land_63, N.shiftr_div_pow2. apply lor_cont. apply N.mod_lt. lia. Qed.

Lemma utf8_put_0 x : x < 128 -> utf8_put x 0 = utf8 x.
Proof. intros H. unfold utf8_put, utf8. rewrite (proj2 (N.ltb_lt _ _) H). reflexivity. Qed.
Lemma utf8_put_1 x : 128 <= x < 2048 -> utf8_put x 1 = utf8 x.
Proof.
  intros H. unfold utf8_put, utf8. rewrite (proj2 (N.ltb_ge _ _) (proj1 H)), (proj2 (N.ltb_lt _ _) (proj2 H)).
  rewrite cont_byte, N.shiftr_div_pow2. change (2 ^ (6 * 0)) with 1. change (2 ^ 6) with 64. rewrite N.div_1_r.
  assert (x / 64 < 32) by (apply N.div_lt_upper_bound; lia). rewrite lor_2 by assumption. reflexivity.
Qed.
Lemma utf8_put_2 x : 2048 <= x < 65536 -> utf8_put x 2 = utf8 x.
Proof.
  intros H. unfold utf8_put, utf8. rewrite (proj2 (N.ltb_ge x 128)) by lia. rewrite (proj2 (N.ltb_ge x 2048)) by lia.
  rewrite (proj2 (N.ltb_lt x 65536)) by lia.
  rewrite !cont_byte, N.shiftr_div_pow2. change (2 ^ (6 * 0)) with 1. change (2 ^ (6 * 1)) with 64. change (2 ^ 12) with 4096. rewrite N.div_1_r.
  assert (x / 4096 < 16) by (apply N.div_lt_upper_bound; lia). rewrite lor_3 by assumption. reflexivity.
Qed.
Lemma utf8_put_3 x : 65536 <= x < 1114112 -> utf8_put x 3 = utf8 x.
Proof.
  intros H. unfold utf8_put, utf8. rewrite (proj2 (N.ltb_ge x 128)) by lia. rewrite (proj2 (N.ltb_ge x 2048)) by lia.
  rewrite (proj2 (N.ltb_ge x 65536)) by lia.
  rewrite !cont_byte, N.shiftr_div_pow2. change (2 ^ (6 * 0)) with 1. change (2 ^ (6 * 1)) with 64. change (2 ^ (6 * 2)) with 4096.
  change (2 ^ 18) with 262144. rewrite N.div_1_r.
  assert (x / 262144 < 8) by (apply N.div_lt_upper_bound; lia). rewrite lor_4 by assumption. reflexivity.
Qed.

Lemma surrogates x : x < 65536 ->
  is_high x = ((55296 <=? x) && (x <? 56320)) /\ is_low x = ((56320 <=? x) && (x <? 57344)) /\ N.land x 1023 = x mod 1024.
Proof.
  intros H.
  assert (S : allp 16 0 (fun x => Bool.eqb (is_high x) ((55296 <=? x) && (x <? 56320)) &&
                                  Bool.eqb (is_low x) ((56320 <=? x) && (x <? 57344)) && (N.land x 1023 =? x mod 1024)) = true)
    by (vm_compute; reflexivity).
  pose proof (below 16 _ x S H) as T. cbv beta in T. apply andb_true_iff in T as [T T3]. apply andb_true_iff in T as [T1 T2].
  apply eqb_prop in T1, T2. apply N.eqb_eq in T3. auto.
Qed.

Definition hex_class (k : jclass) : bool :=
  match k with C_ZERO | C_DIGIT | C_LOW_A | C_LOW_B | C_LOW_C | C_LOW_D | C_LOW_E | C_LOW_F | C_ABCDF | C_E => true | _ => false end.
Lemma hex_char c x : hexval c = Some x -> hex_of c = x /\ x < 16 /\ exists k, char_class c = Some k /\ hex_class k = true.
Proof.
  assert (S : forallb (fun c => match hexval c with
     | Some x => (hex_of c =? x) && (x <? 16) && match char_class c with Some k => hex_class k | None => false end
     | None => true end) all_bytes = true) by (vm_compute; reflexivity).
  pose proof (sweep _ S c) as T. cbv beta in T. intros H. rewrite H in T.
  apply andb_true_iff in T as [T T3]. apply andb_true_iff in T as [T1 T2].
  apply N.eqb_eq in T1. apply N.ltb_lt in T2. destruct (char_class c) as [k|]; [|discriminate]. eauto.
Qed.

(** Three hexadecimal digits are collected, the fourth decodes the escape. *)
Lemma feed_hex h x b stk rb hi : hex4 h x -> forall r,
  kdecode_unicode (Core SU4 b TString false false hi stk (rev h ++ rb)) = Ok (r, true) ->
  cfeed (Core SU1 b TString false false hi stk rb) h = Some ([], kset_state r (if k_high r =? 0 then SST else SD1)).
Proof.
  intros [c1 c2 c3 c4 x1 x2 x3 x4 H1 H2 H3 H4] r D.
  destruct (hex_char _ _ H1) as (_ & _ & k1 & E1 & W1), (hex_char _ _ H2) as (_ & _ & k2 & E2 & W2),
    (hex_char _ _ H3) as (_ & _ & k3 & E3 & W3), (hex_char _ _ H4) as (_ & _ & k4 & E4 & W4).
  cbn [rev app] in D.
  cbn [cfeed].
  rewrite (step_to SU1 b TString stk rb c1 k1 SU2 hi E1) by (try discriminate; destruct k1; try discriminate; reflexivity).
  rewrite (step_to SU2 b TString stk _ c2 k2 SU3 hi E2) by (try discriminate; destruct k2; try discriminate; reflexivity).
  rewrite (step_to SU3 b TString stk _ c3 k3 SU4 hi E3) by (try discriminate; destruct k3; try discriminate; reflexivity).
  assert (L : kjchar (Core SU4 b TString false false hi stk (c3 :: c2 :: c1 :: rb)) c4
            = ([], Ok (kset_state r (if k_high r =? 0 then SST else SD1), true))).
  { unfold kjchar. rewrite E4. destruct k4; try discriminate W4; cbn -[kdecode_unicode]; unfold kset_buf;
      cbn -[kdecode_unicode]; rewrite D; reflexivity. }
  rewrite L. reflexivity.
Qed.

Lemma decode_plain h x q b stk rb : hex4 h x -> scalar x ->
  kdecode_unicode (Core q b TString false false 0 stk (rev h ++ "u"%char :: "\"%char :: rb))
  = Ok (Core q b TString false false 0 stk (rev (utf8 x) ++ rb), true).
Proof.
  intros H S. destruct H as [c1 c2 c3 c4 x1 x2 x3 x4 H1 H2 H3 H4].
  destruct (hex_char _ _ H1) as (E1 & L1 & _), (hex_char _ _ H2) as (E2 & L2 & _),
    (hex_char _ _ H3) as (E3 & L3 & _), (hex_char _ _ H4) as (E4 & L4 & _).
  cbn [rev app]. unfold kdecode_unicode. cbn [k_buf]. rewrite E1, E2, E3, E4.
  rewrite !(proj2 (N.leb_gt 16 _)) by assumption. cbn [orb].
  set (x := x1 * 4096 + x2 * 256 + x3 * 16 + x4) in *.
  assert (Hx : x < 65536) by (unfold x; lia).
  destruct (surrogates x Hx) as (Sh & Sl & _). unfold scalar in S.
  cbn [kset_buf k_high k_state k_before k_type k_escaped k_comment k_stack N.eqb negb].
  destruct (N.ltb_spec x 128) as [A|A]; [rewrite utf8_put_0 by exact A; reflexivity|].
  destruct (N.ltb_spec x 2048) as [B|B]; [rewrite utf8_put_1 by auto; reflexivity|].
  rewrite Sh, Sl.
  destruct (N.leb_spec 55296 x), (N.ltb_spec x 56320), (N.leb_spec 56320 x), (N.ltb_spec x 57344); cbn [andb]; try lia;
    rewrite utf8_put_2 by lia; reflexivity.
Qed.

Lemma decode_high h x q b stk rb : hex4 h x -> 55296 <= x < 56320 ->
  kdecode_unicode (Core q b TString false false 0 stk (rev h ++ "u"%char :: "\"%char :: rb))
  = Ok (Core q b TString false false x stk rb, true).
Proof.
  intros H S. destruct H as [c1 c2 c3 c4 x1 x2 x3 x4 H1 H2 H3 H4].
  destruct (hex_char _ _ H1) as (E1 & L1 & _), (hex_char _ _ H2) as (E2 & L2 & _),
    (hex_char _ _ H3) as (E3 & L3 & _), (hex_char _ _ H4) as (E4 & L4 & _).
  cbn [rev app]. unfold kdecode_unicode. cbn [k_buf]. rewrite E1, E2, E3, E4.
  rewrite !(proj2 (N.leb_gt 16 _)) by assumption. cbn [orb].
  set (x := x1 * 4096 + x2 * 256 + x3 * 16 + x4) in *.
  assert (Hx : x < 65536) by lia.
  destruct (surrogates x Hx) as (Sh & Sl & _).
  cbn [kset_buf k_high k_state k_before k_type k_escaped k_comment k_stack N.eqb negb].
  rewrite (proj2 (N.ltb_ge x 128)), (proj2 (N.ltb_ge x 2048)) by lia.
  rewrite Sh, (proj2 (N.leb_le 55296 x)), (proj2 (N.ltb_lt x 56320)) by lia. reflexivity.
Qed.

Lemma decode_pair h x hi q b stk rb : hex4 h x -> 56320 <= x < 57344 -> 55296 <= hi < 56320 ->
  kdecode_unicode (Core q b TString false false hi stk (rev h ++ "u"%char :: "\"%char :: rb))
  = Ok (Core q b TString false false 0 stk (rev (utf8 (65536 + (hi - 55296) * 1024 + (x - 56320))) ++ rb), true).
Proof.
  intros H S T. destruct H as [c1 c2 c3 c4 x1 x2 x3 x4 H1 H2 H3 H4].
  destruct (hex_char _ _ H1) as (E1 & L1 & _), (hex_char _ _ H2) as (E2 & L2 & _),
    (hex_char _ _ H3) as (E3 & L3 & _), (hex_char _ _ H4) as (E4 & L4 & _).
  cbn [rev app]. unfold kdecode_unicode. cbn [k_buf]. rewrite E1, E2, E3, E4.
  rewrite !(proj2 (N.leb_gt 16 _)) by assumption. cbn [orb].
  set (x := x1 * 4096 + x2 * 256 + x3 * 16 + x4) in *.
  assert (Hx : x < 65536) by lia.
  destruct (surrogates x Hx) as (_ & Sl & La). destruct (surrogates hi ltac:(lia)) as (_ & _ & Lh).
  cbn [kset_buf kset_high k_high k_state k_before k_type k_escaped k_comment k_stack].
  rewrite (proj2 (N.eqb_neq hi 0)) by lia. cbn [negb].
  rewrite Sl, (proj2 (N.leb_le 56320 x)), (proj2 (N.ltb_lt x 57344)) by lia. cbn [andb].
  rewrite La, Lh, N.shiftl_mul_pow2. change (2 ^ 10) with 1024.
  assert (M1 : hi mod 1024 = hi - 55296) by (replace hi with ((hi - 55296) + 54 * 1024) at 1 by lia; rewrite N.mod_add by lia; apply N.mod_small; lia).
  assert (M2 : x mod 1024 = x - 56320) by (replace x with ((x - 56320) + 55 * 1024) at 1 by lia; rewrite N.mod_add by lia; apply N.mod_small; lia).
  rewrite M1, M2. replace ((hi - 55296) * 1024 + (x - 56320) + 65536) with (65536 + (hi - 55296) * 1024 + (x - 56320)) by lia.
  rewrite utf8_put_3 by lia. reflexivity.
Qed.

(** ** Strings *)

Lemma feed_u b stk rb t e s : cfeed (Core SU1 b TString false false 0 stk ("u"%char :: "\"%char :: rb)) t = Some (e, s) ->
  cfeed (K SST b TString stk rb) ("\"%char :: "u"%char :: t) = Some (e, s).
Proof.
  intros H. eapply (cfeed_step _ _ _ []); [reflexivity|]. eapply (cfeed_step _ _ _ []); [reflexivity|]. exact H.
Qed.

Lemma feed_d b stk rb hi t e s : cfeed (Core SU1 b TString false false hi stk ("u"%char :: "\"%char :: rb)) t = Some (e, s) ->
  cfeed (Core SD1 b TString false false hi stk rb) ("\"%char :: "u"%char :: t) = Some (e, s).
Proof.
  intros H. eapply (cfeed_step _ _ _ []); [reflexivity|]. eapply (cfeed_step _ _ _ []); [reflexivity|]. exact H.
Qed.

Lemma plain_class c : 32 <= bval c -> bval c <> 34 -> bval c <> 92 -> exists k, char_class c = Some k /\ trans SST k = To SST.
Proof.
  assert (S : forallb (fun c => implb ((32 <=? bval c) && negb (bval c =? 34) && negb (bval c =? 92))
     (match char_class c with Some k => match trans SST k with To SST => true | _ => false end | None => false end)) all_bytes = true)
    by (vm_compute; reflexivity).
  pose proof (sweep _ S c) as T. cbv beta in T. intros H1 H2 H3.
  rewrite (proj2 (N.leb_le _ _) H1), (proj2 (N.eqb_neq _ _) H2), (proj2 (N.eqb_neq _ _) H3) in T. cbn [andb negb implb] in T.
  destruct (char_class c) as [k|]; [|discriminate]. exists k. split; [reflexivity|].
  destruct (trans SST k) as [q| | | | | | | | | | | | | | | | | | | | | |]; try discriminate. destruct q; try discriminate. reflexivity.
Qed.

Lemma feed_short c x b stk rb : short_escape c = Some x ->
  cfeed (K SST b TString stk rb) ["\"%char; c] = Some ([], K SST b TString stk (bchr x :: rb)).
Proof.
  unfold short_escape. intros H.
  repeat match type of H with
  | (if aeqb ?a ?b then _ else _) = _ => destruct (aeqb a b) eqn:E; [apply aeqb_eq in E; subst; injection H as <-; reflexivity|clear E]
  end. discriminate.
Qed.

Lemma feed_chars t s : chars byte_plain t s -> forall b stk rb,
  cfeed (K SST b TString stk rb) t = Some ([], K SST b TString stk (rev s ++ rb)).
Proof.
  induction 1 as [|u t s (c & -> & H1 & H2 & H3) _ IH|c x t s Hs _ IH|h x t s Hh Hx _ IH|h1 x1 h2 x2 t s Hh1 Hx1 Hh2 Hx2 _ IH];
    intros b stk rb.
  - reflexivity.
  - destruct (plain_class c H1 H2 H3) as (k & Ek & Tk). cbn [app rev]. rewrite <- app_assoc. cbn [app].
    apply (cfeed_step _ _ _ [] (K SST b TString stk (c :: rb)) []).
    + apply (step_to _ _ _ _ _ _ k); auto. discriminate.
    + apply IH.
  - change ("\"%char :: c :: t) with (["\"%char; c] ++ t). cbn [rev]. rewrite <- app_assoc. cbn [app].
    apply (cfeed_trans _ ["\"%char; c] t [] (K SST b TString stk (bchr x :: rb)) []); [apply feed_short, Hs|apply IH].
  - apply feed_u. rewrite rev_app_distr, <- app_assoc.
    eapply (cfeed_trans _ h t [] _ []); [|apply IH].
    rewrite (feed_hex h x b stk _ 0 Hh _ (decode_plain h x SU4 b stk rb Hh Hx)). reflexivity.
  - apply feed_u. rewrite rev_app_distr, <- app_assoc.
    eapply (cfeed_trans _ h1 _ [] (Core SD1 b TString false false x1 stk rb) []).
    + rewrite (feed_hex h1 x1 b stk _ 0 Hh1 _ (decode_high h1 x1 SU4 b stk rb Hh1 Hx1)).
      cbn [k_high]. rewrite (proj2 (N.eqb_neq x1 0)) by lia. reflexivity.
    + apply feed_d. eapply (cfeed_trans _ h2 t [] _ []); [|apply IH].
      rewrite (feed_hex h2 x2 b stk _ x1 Hh2 _ (decode_pair h2 x2 x1 SU4 b stk rb Hh2 Hx2 Hx1)). reflexivity.
Qed.

(** ** Numbers *)

Definition vparse (ty : jtype) (t : bytes) : option (list jev) :=
  match ty with
  | TNone => Some []
  | TFloat => Some [JFloat (strtod t)]
  | TInteger => match sscanf_lld t with Some z => Some [JInteger z] | None => None end
  | TUnsigned => match sscanf_llu t with Some n => Some [JUnsigned n] | None => None end
  | TNull => Some [JNull] | TTrue => Some [JTrue] | TFalse => Some [JFalse]
  | TString => None
  end.

Lemma vparse_ok s e : vparse (k_type s) (rev (k_buf s)) = Some e -> kparse_buffer s = (e, Ok (kbuf_clear s)).
Proof.
  unfold vparse, kparse_buffer. destruct (k_type s); try discriminate; try (intros [= <-]; reflexivity).
  - destruct (sscanf_lld _); [|discriminate]. intros [= <-]. reflexivity.
  - destruct (sscanf_llu _); [|discriminate]. intros [= <-]. reflexivity.
Qed.

Lemma span_snoc p t c : p c = false -> span p (t ++ [c]) = (fst (span p t), snd (span p t) ++ [c]).
Proof.
  intros H. induction t as [|x t IH]; cbn [app span].
  - rewrite H. reflexivity.
  - destruct (p x); [|reflexivity]. rewrite IH. destruct (span p t). reflexivity.
Qed.

Lemma span_snoc_in p t c : p c = true ->
  snd (span p (t ++ [c])) = match snd (span p t) with [] => [] | r => r ++ [c] end.
Proof.
  intros H. induction t as [|x t IH]; cbn [app span].
  - rewrite H. reflexivity.
  - destruct (p x); [|reflexivity]. destruct (span p (t ++ [c])), (span p t). cbn [snd] in *. exact IH.
Qed.

Lemma ws_facts c : is_ws c = true -> is_space c = true /\ is_digit c = false /\ aeqb c "-" = false /\ aeqb c "+" = false /\
  aeqb c "." = false /\ aeqb c "e" = false /\ aeqb c "E" = false.
Proof.
  unfold is_ws. intros H. repeat (apply orb_true_iff in H; destruct H as [H|H]); apply N.eqb_eq in H;
    rewrite <- (bchr_bval c), H; repeat split; reflexivity.
Qed.

Lemma skip_ws t c : is_ws c = true -> skip_space (t ++ [c]) = skip_space t ++ [c] \/ (skip_space t = [] /\ skip_space (t ++ [c]) = []).
Proof.
  intros H. apply ws_facts in H as (Hs & _). unfold skip_space. rewrite (span_snoc_in _ _ _ Hs).
  destruct (snd (span is_space t)); [right; auto|left; reflexivity].
Qed.

Lemma take_sign_ws t c : is_ws c = true -> take_sign (t ++ [c]) = (fst (take_sign t), snd (take_sign t) ++ [c]).
Proof.
  intros H. apply ws_facts in H as (_ & _ & H1 & H2 & _). destruct t as [|x t]; cbn [app take_sign].
  - rewrite H1, H2. reflexivity.
  - destruct (aeqb x "-"); [reflexivity|]. destruct (aeqb x "+"); reflexivity.
Qed.

Lemma lld_ws t c : is_ws c = true -> sscanf_lld (t ++ [c]) = sscanf_lld t.
Proof.
  intros H. pose proof (ws_facts c H) as (_ & Hd & _). unfold sscanf_lld.
  destruct (skip_ws t c H) as [->|[-> ->]]; [|reflexivity].
  rewrite (take_sign_ws _ _ H). destruct (take_sign (skip_space t)) as [neg r]. cbn [fst snd].
  rewrite (span_snoc _ _ _ Hd). destruct (span is_digit r). reflexivity.
Qed.
Lemma llu_ws t c : is_ws c = true -> sscanf_llu (t ++ [c]) = sscanf_llu t.
Proof.
  intros H. pose proof (ws_facts c H) as (_ & Hd & _). unfold sscanf_llu.
  destruct (skip_ws t c H) as [->|[-> ->]]; [|reflexivity].
  rewrite (take_sign_ws _ _ H). destruct (take_sign (skip_space t)) as [neg r]. cbn [fst snd].
  rewrite (span_snoc _ _ _ Hd). destruct (span is_digit r). reflexivity.
Qed.
Lemma read_exp_ws t c : is_ws c = true -> read_exp (t ++ [c]) = read_exp t.
Proof.
  intros H. pose proof (ws_facts c H) as (_ & Hd & _ & _ & _ & He & HE). destruct t as [|x t]; cbn [app read_exp].
  - rewrite He, HE. reflexivity.
  - destruct (aeqb x "e" || aeqb x "E")%bool; [|reflexivity].
    rewrite (take_sign_ws _ _ H). destruct (take_sign t) as [neg r]. cbn [fst snd].
    rewrite (span_snoc _ _ _ Hd). destruct (span is_digit r). reflexivity.
Qed.
Lemma strtod_ws t c : is_ws c = true -> strtod (t ++ [c]) = strtod t.
Proof.
  intros H. pose proof (ws_facts c H) as (_ & Hd & _ & _ & Hp & _ & _). unfold strtod.
  destruct (skip_ws t c H) as [->|[-> ->]]; [|reflexivity].
  rewrite (take_sign_ws _ _ H). destruct (take_sign (skip_space t)) as [neg r]. cbn [fst snd].
  rewrite (span_snoc _ _ _ Hd). destruct (span is_digit r) as [ip r2]. cbn [fst snd].
  destruct r2 as [|x r2]; cbn [app].
  - rewrite Hp. destruct (ip ++ []) as [|d ds]; [reflexivity|]. f_equal.
    rewrite <- (read_exp_ws [] c H). reflexivity.
  - destruct (aeqb x "."); [|].
    + rewrite (span_snoc _ _ _ Hd). destruct (span is_digit r2) as [fp r3]. cbn [fst snd].
      destruct (ip ++ fp) as [|d ds]; [reflexivity|]. rewrite (read_exp_ws _ _ H). reflexivity.
    + destruct (ip ++ []) as [|d ds]; [reflexivity|]. rewrite <- (read_exp_ws (x :: r2) c H). reflexivity.
Qed.

Lemma vparse_ws ty t c : is_ws c = true -> vparse ty (t ++ [c]) = vparse ty t.
Proof. intros H. unfold vparse. destruct ty; rewrite ?(lld_ws _ _ H), ?(llu_ws _ _ H), ?(strtod_ws _ _ H); reflexivity. Qed.

(** Where a value may end. *)
Definition ending (q : jstate) : bool := match q with SOK | SZE | SIT | SFX | SFR | SE3 => true | _ => false end.

(** The parser after a value whose events [e] are still to be delivered. *)
Definition vend (stk : list jmode) (b : jstate) (e : list jev) (s : core) : Prop :=
  exists q ty rb, s = K q b ty stk rb /\ ending q = true /\ (ty = TNone -> q = SOK /\ rb = []) /\ vparse ty (rev rb) = Some e.

Lemma vend_ws stk b e s w : vend stk b e s -> wsp w -> exists s', cfeed s w = Some ([], s') /\ vend stk b e s'.
Proof.
  unfold wsp. revert s. induction w as [|c w IH]; intros s V H; cbn [forallb] in H.
  - exists s. split; [reflexivity|exact V].
  - apply andb_true_iff in H as [Hc Hw]. destruct V as (q & ty & rb & -> & Hq & Hn & Hv).
    destruct (ws_class c Hc) as (k & Ek & Wk).
    assert (S : exists rb', kjchar (K q b ty stk rb) c = ([], Ok (K SOK b ty stk rb', true)) /\ vend stk b e (K SOK b ty stk rb')).
    { destruct ty eqn:Ety.
      1: { destruct (Hn eq_refl) as [-> ->]. exists []. split.
           - unfold kjchar. rewrite Ek. destruct k; try discriminate; reflexivity.
           - exists SOK, TNone, []. auto. }
      all: exists (c :: rb); split;
        [apply (step_to _ _ _ _ _ _ k); [exact Ek|destruct k; try discriminate; destruct q; try discriminate; reflexivity|discriminate]
        |eexists SOK, _, (c :: rb); split; [reflexivity|]; split; [reflexivity|]; split; [discriminate|];
         cbn [rev]; rewrite (vparse_ws _ _ _ Hc); exact Hv]. }
    destruct S as (rb' & S1 & S2). destruct (IH _ S2 Hw) as (s' & F & V').
    exists s'. split; [|exact V']. exact (cfeed_step _ _ _ [] _ [] _ S1 F).
Qed.

Lemma digit_class c : is_digit c = true -> exists k, char_class c = Some k /\
  (if aeqb c "0" then k = C_ZERO else k = C_DIGIT).
Proof.
  assert (S : forallb (fun c => implb (is_digit c)
     (match char_class c with Some C_ZERO => aeqb c "0" | Some C_DIGIT => negb (aeqb c "0") | _ => false end)) all_bytes = true)
    by (vm_compute; reflexivity).
  pose proof (sweep _ S c) as T. cbv beta in T. intros H. rewrite H in T. cbn [implb] in T.
  destruct (char_class c) as [k|]; [|discriminate]. exists k. split; [reflexivity|].
  destruct (aeqb c "0"); destruct k; try discriminate; reflexivity.
Qed.

Definition looping (q : jstate) : bool := match q with SIT | SFR | SE3 => true | _ => false end.
Lemma feed_digits q b ty stk ds : looping q = true -> ty <> TNone -> digits ds -> forall rb,
  cfeed (K q b ty stk rb) ds = Some ([], K q b ty stk (rev ds ++ rb)).
Proof.
  intros Hq Ht. unfold digits. induction ds as [|c ds IH]; intros H rb; [reflexivity|].
  cbn [forallb] in H. apply andb_true_iff in H as [Hc Hd]. cbn [rev]. rewrite <- app_assoc. cbn [app].
  apply (cfeed_step _ _ _ [] (K q b ty stk (c :: rb)) []); [|apply IH, Hd].
  destruct (digit_class c Hc) as (k & Ek & Kk).
  apply (step_to _ _ _ _ _ _ k); [exact Ek| |congruence].
  destruct (aeqb c "0"); subst k; destruct q; try discriminate; reflexivity.
Qed.

Definition start_value (q : jstate) : bool := match q with SVA | SAR => true | _ => false end.

Definition int_type (neg : bool) : jtype := if neg then TInteger else TUnsigned.
Definition int_state (ip : bytes) : jstate := if beqb ip (s2b "0") then SZE else SIT.

Lemma feed_int q b stk neg ip : start_value q = true -> int_part ip ->
  cfeed (K q b TNone stk []) (minus neg ++ ip) = Some ([], K (int_state ip) b (int_type neg) stk (rev (minus neg ++ ip))).
Proof.
  intros Hq [->|(c & ds & -> & Hc & Hz & Hd)].
  - destruct neg, q; try discriminate; reflexivity.
  - assert (E : int_state (c :: ds) = SIT).
    { unfold int_state. destruct (beqb (c :: ds) (s2b "0")) eqn:E; [|reflexivity]. apply beqb_eq in E. injection E as -> _. congruence. }
    rewrite E. destruct (digit_class c Hc) as (k & Ek & Kk). rewrite (proj2 (aeqb_neq _ _) Hz) in Kk. subst k.
    destruct neg; cbn [minus app rev].
    + eapply (cfeed_step _ _ _ [] (K SMI b TInteger stk ["-"%char]) []); [destruct q; try discriminate; reflexivity|].
      eapply (cfeed_step _ _ _ [] (K SIT b TInteger stk [c; "-"%char]) []).
      * apply (step_to _ _ _ _ _ _ C_DIGIT); [exact Ek|reflexivity|discriminate].
      * rewrite <- !app_assoc. cbn [app]. apply feed_digits; [reflexivity|discriminate|exact Hd].
    + eapply (cfeed_step _ _ _ [] (K SIT b TUnsigned stk [c]) []).
      * unfold kjchar, K. rewrite Ek. destruct q; try discriminate; reflexivity.
      * apply feed_digits; [reflexivity|discriminate|exact Hd].
Qed.

Lemma feed_point q b neg stk rb fp : (q = SZE \/ q = SIT) -> digits fp ->
  exists q', (q' = SFX \/ q' = SFR) /\
    cfeed (K q b (int_type neg) stk rb) ("."%char :: fp) = Some ([], K q' b TFloat stk (rev ("."%char :: fp) ++ rb)).
Proof.
  intros Hq Hf.
  assert (P : kjchar (K q b (int_type neg) stk rb) "." = ([], Ok (K SFX b TFloat stk ("."%char :: rb), true)))
    by (destruct Hq as [->| ->], neg; reflexivity).
  destruct fp as [|c fp].
  - exists SFX. split; [auto|]. eapply (cfeed_step _ _ _ [] _ []); [exact P|reflexivity].
  - exists SFR. split; [auto|]. cbn [rev]. rewrite <- !app_assoc. cbn [app].
    unfold digits in Hf. cbn [forallb] in Hf. apply andb_true_iff in Hf as [Hc Hd].
    eapply (cfeed_step _ _ _ [] _ []); [exact P|].
    eapply (cfeed_step _ _ _ [] (K SFR b TFloat stk (c :: "."%char :: rb)) []).
    + destruct (digit_class c Hc) as (k & Ek & Kk).
      apply (step_to _ _ _ _ _ _ k); [exact Ek| |discriminate]. destruct (aeqb c "0"); subst k; reflexivity.
    + apply feed_digits; [reflexivity|discriminate|exact Hd].
Qed.

Lemma feed_exp q b ty stk rb e sg ds : exp_part e sg ds ->
  ((q = SIT /\ exists neg, ty = int_type neg) \/ ((q = SFX \/ q = SFR) /\ ty = TFloat)) ->
  cfeed (K q b ty stk rb) (e :: sg ++ ds) = Some ([], K SE3 b TFloat stk (rev (e :: sg ++ ds) ++ rb)).
Proof.
  intros (He & Hs & Hd & Hn) Hq.
  assert (P : kjchar (K q b ty stk rb) e = ([], Ok (K SE1 b TFloat stk (e :: rb), true))).
  { destruct Hq as [[-> [neg ->]]|[[->| ->] ->]]; destruct He as [->| ->]; try (destruct neg); reflexivity. }
  assert (Q : forall q1 rb1, q1 = SE1 \/ q1 = SE2 -> cfeed (K q1 b TFloat stk rb1) ds = Some ([], K SE3 b TFloat stk (rev ds ++ rb1))).
  { intros q1 rb1 H1. destruct ds as [|c ds]; [congruence|].
    unfold digits in Hd. cbn [forallb] in Hd. apply andb_true_iff in Hd as [Hc Hd].
    cbn [rev]. rewrite <- app_assoc. cbn [app].
    eapply (cfeed_step _ _ _ [] (K SE3 b TFloat stk (c :: rb1)) []).
    - destruct (digit_class c Hc) as (k & Ek & Kk).
      apply (step_to _ _ _ _ _ _ k); [exact Ek| |discriminate]. destruct (aeqb c "0"); subst k; destruct H1 as [->| ->]; reflexivity.
    - apply feed_digits; [reflexivity|discriminate|exact Hd]. }
  cbn [rev]. rewrite <- app_assoc. cbn [app].
  eapply (cfeed_step _ _ _ [] _ []); [exact P|].
  rewrite rev_app_distr, <- app_assoc.
  destruct Hs as [->|[->| ->]]; cbn [app rev s2b list_ascii_of_string].
  - apply Q. auto.
  - eapply (cfeed_step _ _ _ [] (K SE2 b TFloat stk ("+"%char :: e :: rb)) []); [reflexivity|]. apply Q. auto.
  - eapply (cfeed_step _ _ _ [] (K SE2 b TFloat stk ("-"%char :: e :: rb)) []); [reflexivity|]. apply Q. auto.
Qed.

Lemma int_digits ip : int_part ip -> digits ip /\ ip <> [].
Proof.
  intros [->|(c & ds & -> & Hc & _ & Hd)]; (split; [|discriminate]); [reflexivity|].
  unfold digits. cbn [forallb]. rewrite Hc. exact Hd.
Qed.

Lemma sign_int neg ip rest : digits ip -> ip <> [] -> is_dot_or_end rest ->
  exists t, take_sign (skip_space (minus neg ++ ip ++ rest)) = (neg, t) /\ span is_digit t = (ip, rest).
Proof.
  intros Hd Hn Hr. exists (ip ++ rest). split; [|apply span_digits; assumption].
  destruct ip as [|c ip]; [congruence|]. unfold digits in Hd. cbn [forallb] in Hd. apply andb_true_iff in Hd as [Hc _].
  apply digit_not_special in Hc as (H0 & H1 & H2 & _).
  rewrite skip_space_digit by (destruct neg; [reflexivity|exact H0]).
  destruct neg; [reflexivity|]. cbn [minus app take_sign]. rewrite H1, H2. reflexivity.
Qed.

Lemma strtod_int_exp neg ip rest : digits ip -> ip <> [] -> is_dot_or_end rest ->
  match rest with c :: _ => aeqb c "." = false | [] => True end ->
  strtod (minus neg ++ ip ++ rest) = dec_to_d neg (dec_value ip) (read_exp rest).
Proof.
  intros Hd Hn Hr Hp. destruct (sign_int neg ip rest Hd Hn Hr) as (t & T1 & T2).
  unfold strtod. rewrite T1, T2.
  assert (E : match rest with c :: t0 => if aeqb c "." then span is_digit t0 else ([], rest) | [] => ([], rest) end = ([], rest)).
  { destruct rest as [|c rest]; [reflexivity|]. rewrite Hp. reflexivity. }
  rewrite E, app_nil_r. destruct ip as [|c ip]; [congruence|]. cbn [List.length]. f_equal. lia.
Qed.

Lemma exp_head e sg ds : exp_part e sg ds -> is_dot_or_end (e :: sg ++ ds) /\ aeqb e "." = false.
Proof. intros ([->| ->] & _); split; reflexivity. Qed.

Lemma read_exp_part e sg ds : exp_part e sg ds -> read_exp (e :: sg ++ ds) = exp_value sg ds.
Proof.
  intros (He & Hs & Hd & Hn). unfold read_exp.
  replace (aeqb e "e" || aeqb e "E")%bool with true by (destruct He as [->| ->]; reflexivity).
  assert (T : take_sign (sg ++ ds) = (beqb sg (s2b "-"), ds)).
  { destruct Hs as [->|[->| ->]]; try reflexivity. cbn [app].
    destruct ds as [|c ds]; [congruence|]. unfold digits in Hd. cbn [forallb] in Hd. apply andb_true_iff in Hd as [Hc _].
    apply digit_not_special in Hc as (_ & H1 & H2 & _). cbn [take_sign]. rewrite H1, H2. reflexivity. }
  rewrite T, (span_nil _ _ Hd). reflexivity.
Qed.

(** The event of a number. *)
Definition num_event (n : jtree) : list jev :=
  match n with
  | TInt true n => [JInteger (Z.max (- 2^63) (- Z.of_N n))]
  | TInt false n => [JUnsigned (if 2^64 <=? n then 2^64 - 1 else n)]
  | TDec neg D E => [JFloat (dec_to_d neg D E)]
  | _ => []
  end.

Lemma feed_num t n : lib_num t n -> forall q b stk, start_value q = true ->
  exists s, cfeed (K q b TNone stk []) t = Some ([], s) /\ vend stk b (num_event n) s.
Proof.
  intros H q b stk Hq. destruct H as [neg ip Hi|neg ip fp Hi Hf _|neg ip e sg ds Hi He H0|neg ip fp e sg ds Hi Hf _ He];
    destruct (int_digits ip Hi) as [Hd Hn]; pose proof (feed_int q b stk neg ip Hq Hi) as F.
  - eexists. split; [exact F|]. eexists _, _, _. split; [reflexivity|].
    split; [unfold int_state; destruct (beqb ip (s2b "0")); reflexivity|].
    split; [destruct neg; discriminate|]. rewrite rev_involutive.
    destruct (sign_int neg ip [] Hd Hn I) as (t & T1 & T2). rewrite app_nil_r in T1.
    destruct neg; cbn [int_type vparse num_event]; [unfold sscanf_lld|unfold sscanf_llu]; rewrite T1, T2;
      destruct ip as [|c ip]; try congruence; reflexivity.
  - destruct (feed_point (int_state ip) b neg stk (rev (minus neg ++ ip)) fp) as (q' & Hq' & P);
      [unfold int_state; destruct (beqb ip (s2b "0")); auto|exact Hf|].
    eexists. split.
    + rewrite app_assoc. eapply (cfeed_trans _ _ _ [] _ []); [exact F|exact P].
    + rewrite <- rev_app_distr, <- app_assoc. eexists _, _, _. split; [reflexivity|].
      split; [destruct Hq' as [->| ->]; reflexivity|]. split; [discriminate|]. rewrite rev_involutive.
      cbn [vparse num_event]. do 3 f_equal. replace ("."%char :: fp) with ("."%char :: fp ++ []) by (now rewrite app_nil_r).
      unfold minus. rewrite (strtod_shape neg ip fp [] Hd Hn Hf I). reflexivity.
  - assert (Z : int_state ip = SIT).
    { unfold int_state. destruct (beqb ip (s2b "0")) eqn:E; [|reflexivity]. apply beqb_eq in E. now specialize (H0 E). }
    rewrite Z in F.
    eexists. split.
    + rewrite app_assoc. eapply (cfeed_trans _ _ _ [] _ []); [exact F|]. apply (feed_exp _ _ _ _ _ _ _ _ He). left. eauto.
    + rewrite <- rev_app_distr, <- app_assoc. eexists _, _, _. split; [reflexivity|].
      split; [reflexivity|]. split; [discriminate|]. rewrite rev_involutive.
      destruct (exp_head _ _ _ He). cbn [vparse num_event]. rewrite strtod_int_exp by assumption.
      rewrite (read_exp_part _ _ _ He). reflexivity.
  - destruct (feed_point (int_state ip) b neg stk (rev (minus neg ++ ip)) fp) as (q' & Hq' & P);
      [unfold int_state; destruct (beqb ip (s2b "0")); auto|exact Hf|].
    eexists. split.
    + rewrite app_assoc. eapply (cfeed_trans _ _ _ [] _ []); [exact F|].
      change ("."%char :: fp ++ e :: sg ++ ds) with (("."%char :: fp) ++ e :: sg ++ ds).
      eapply (cfeed_trans _ _ _ [] _ []); [exact P|]. apply (feed_exp _ _ _ _ _ _ _ _ He). right. auto.
    + rewrite <- !rev_app_distr, <- !app_assoc. eexists _, _, _. split; [reflexivity|].
      split; [reflexivity|]. split; [discriminate|]. rewrite rev_involutive.
      destruct (exp_head _ _ _ He). cbn [vparse num_event app]. do 3 f_equal. unfold minus.
      rewrite strtod_shape by assumption. rewrite (read_exp_part _ _ _ He). reflexivity.
Qed.

(** ** Values *)

(** The callbacks a text should cause. *)
Fixpoint tevents (v : jtree) : list jev :=
  match v with
  | TNul => [JNull]
  | TBool true => [JTrue]
  | TBool false => [JFalse]
  | TInt _ _ | TDec _ _ _ => num_event v
  | TStr s => [JString s]
  | TArr l => JArrayBegin :: flat_map tevents l ++ [JArrayEnd]
  | TObj m => JObjectBegin :: flat_map (fun kv => JKey (fst kv) :: tevents (snd kv)) m ++ [JObjectEnd]
  end.

Definition value_mode (m : jmode) : bool := match m with MArray | MObject => true | _ => false end.
Definition start_key (q : jstate) : bool := match q with SOB | SKE => true | _ => false end.

Lemma feed_open q b stk t : start_value q = true \/ start_key q = true -> forall s, chars byte_plain t s ->
  cfeed (K q b TNone stk []) (bchr 34 :: t) = Some ([], K SST b TString stk (rev s)).
Proof.
  intros Hq s Hc. eapply (cfeed_step _ _ _ [] (K SST b TString stk []) []).
  - destruct q; destruct Hq; try discriminate; reflexivity.
  - rewrite (feed_chars _ _ Hc). now rewrite app_nil_r.
Qed.

Lemma feed_string q b m stk t s : start_value q = true -> value_mode m = true -> chars byte_plain t s ->
  cfeed (K q b TNone (m :: stk) []) (quoted t) = Some ([JString s], K SOK b TNone (m :: stk) []).
Proof.
  intros Hq Hm Hc. unfold quoted.
  eapply (cfeed_trans _ (bchr 34 :: t) [bchr 34] [] _ [JString s]).
  - apply feed_open; [auto|exact Hc].
  - rewrite <- (rev_involutive s) at 2. destruct m; try discriminate; reflexivity.
Qed.

Lemma feed_key q b stk t s : start_key q = true -> chars byte_plain t s ->
  cfeed (K q b TNone (MKey :: stk) []) (quoted t) = Some ([JKey s], K SCO b TNone (MKey :: stk) []).
Proof.
  intros Hq Hc. unfold quoted.
  eapply (cfeed_trans _ (bchr 34 :: t) [bchr 34] [] _ [JKey s]).
  - apply feed_open; [auto|exact Hc].
  - rewrite <- (rev_involutive s) at 2. reflexivity.
Qed.

(** The characters after a value. *)
Lemma vend_char s stk b e c a : vend stk b e s -> char_class c = Some C_COMMA /\ a = M3 \/ char_class c = Some C_RSQRB /\ a = M7 \/
    char_class c = Some C_RCURB /\ a = M8 ->
  exists q ty rb, vparse ty (rev rb) = Some e /\ kjchar s c = kjact (K q b ty stk (c :: rb)) a /\ ty <> TString.
Proof.
  intros (q & ty & rb & -> & Hq & Hn & Hv) H. exists q, ty, rb. split; [exact Hv|].
  split; [|intros ->; discriminate].
  unfold kjchar. destruct H as [[-> ->]|[[-> ->]|[-> ->]]]; unfold kadd_char, K; destruct ty; destruct q; try discriminate; reflexivity.
Qed.

Lemma vend_comma_array s stk b e : vend (MArray :: stk) b e s ->
  kjchar s "," = (e, Ok (K SVA b TNone (MArray :: stk) [], true)).
Proof.
  intros V. destruct (vend_char s _ b e "," M3 V) as (q & ty & rb & Hv & -> & Ht); [left; split; reflexivity|].
  unfold kjact, K. cbn [quiet kbuf_pop k_buf after snd fst].
  rewrite (vparse_ok (kset_buf (Core q b ty false false 0 (MArray :: stk) (_ :: rb)) rb) e Hv). destruct ty; try congruence; cbn; rewrite !app_nil_r; reflexivity.
Qed.
Lemma vend_comma_object s stk b e : vend (MObject :: stk) b e s ->
  kjchar s "," = (e, Ok (K SKE b TNone (MKey :: stk) [], true)).
Proof.
  intros V. destruct (vend_char s _ b e "," M3 V) as (q & ty & rb & Hv & -> & Ht); [left; split; reflexivity|].
  unfold kjact, K. cbn [quiet kbuf_pop k_buf after snd fst].
  rewrite (vparse_ok (kset_buf (Core q b ty false false 0 (MObject :: stk) (_ :: rb)) rb) e Hv). destruct ty; try congruence; cbn; rewrite !app_nil_r; reflexivity.
Qed.
Lemma vend_close_array s stk b e : vend (MArray :: stk) b e s ->
  kjchar s "]" = (e ++ [JArrayEnd], Ok (K SOK b TNone stk [], true)).
Proof.
  intros V. destruct (vend_char s _ b e "]" M7 V) as (q & ty & rb & Hv & -> & Ht); [right; left; split; reflexivity|].
  unfold kjact, K. cbn [quiet kbuf_pop k_buf after snd fst].
  rewrite (vparse_ok (kset_buf (Core q b ty false false 0 (MArray :: stk) (_ :: rb)) rb) e Hv). destruct ty; try congruence; cbn; reflexivity.
Qed.
Lemma vend_close_object s stk b e : vend (MObject :: stk) b e s ->
  kjchar s "}" = (e ++ [JObjectEnd], Ok (K SOK b TNone stk [], true)).
Proof.
  intros V. destruct (vend_char s _ b e "}" M8 V) as (q & ty & rb & Hv & -> & Ht); [right; right; split; reflexivity|].
  unfold kjact, K. cbn [quiet kbuf_pop k_buf after snd fst].
  rewrite (vparse_ok (kset_buf (Core q b ty false false 0 (MObject :: stk) (_ :: rb)) rb) e Hv). destruct ty; try congruence; cbn; reflexivity.
Qed.

Lemma vend_ok stk b : vend stk b [] (K SOK b TNone stk []).
Proof. exists SOK, TNone, []. auto. Qed.

(** Feeding [t] from [s] ends in a value end with all of [evs] delivered or pending. *)
Definition reads (s : core) (t : bytes) (stk : list jmode) (b : jstate) (evs : list jev) : Prop :=
  exists e1 e2 s', cfeed s t = Some (e1, s') /\ vend stk b e2 s' /\ e1 ++ e2 = evs.

Lemma reads_ws s t stk b evs w1 w2 q stk0 : reads (K q b TNone stk0 []) t stk b evs -> s = K q b TNone stk0 [] -> idle q = true ->
  wsp w1 -> wsp w2 -> reads s (w1 ++ t ++ w2) stk b evs.
Proof.
  intros (e1 & e2 & s' & F & V & E) -> Hq W1 W2. destruct (vend_ws _ _ _ _ _ V W2) as (s2 & F2 & V2).
  exists e1, e2, s2. split; [|auto].
  eapply (cfeed_trans _ w1 _ [] _ e1); [apply feed_ws; auto|].
  rewrite <- (app_nil_r e1). eapply cfeed_trans; eauto.
Qed.

Theorem feed_values :
  (forall t v, jval wsp byte_plain lib_num t v -> forall q b m stk, start_value q = true -> value_mode m = true ->
     reads (K q b TNone (m :: stk) []) t (m :: stk) b (tevents v)) /\
  (forall t l, jelems wsp byte_plain lib_num t l -> forall q b stk, start_value q = true ->
     reads (K q b TNone (MArray :: stk) []) t (MArray :: stk) b (flat_map tevents l)) /\
  (forall t m, jmembers wsp byte_plain lib_num t m -> forall q b stk, start_key q = true ->
     reads (K q b TNone (MKey :: stk) []) t (MObject :: stk) b (flat_map (fun kv => JKey (fst kv) :: tevents (snd kv)) m)).
Proof.
  assert (IV : forall q, start_value q = true -> idle q = true) by (intros []; discriminate || reflexivity).
  assert (IK : forall q, start_key q = true -> idle q = true) by (intros []; discriminate || reflexivity).
  apply (jval_all wsp byte_plain lib_num
    (fun t v _ => forall q b m stk, start_value q = true -> value_mode m = true ->
       reads (K q b TNone (m :: stk) []) t (m :: stk) b (tevents v))
    (fun t l _ => forall q b stk, start_value q = true ->
       reads (K q b TNone (MArray :: stk) []) t (MArray :: stk) b (flat_map tevents l))
    (fun t m _ => forall q b stk, start_key q = true ->
       reads (K q b TNone (MKey :: stk) []) t (MObject :: stk) b (flat_map (fun kv => JKey (fst kv) :: tevents (snd kv)) m))).
  - intros q b m stk Hq _. exists [], [JNull], (K SOK b TNull (m :: stk) (rev (s2b "null"))).
    split; [destruct q; try discriminate; reflexivity|]. split; [|reflexivity].
    eexists _, _, _. split; [reflexivity|]. repeat split; discriminate.
  - intros q b m stk Hq _. exists [], [JTrue], (K SOK b TTrue (m :: stk) (rev (s2b "true"))).
    split; [destruct q; try discriminate; reflexivity|]. split; [|reflexivity].
    eexists _, _, _. split; [reflexivity|]. repeat split; discriminate.
  - intros q b m stk Hq _. exists [], [JFalse], (K SOK b TFalse (m :: stk) (rev (s2b "false"))).
    split; [destruct q; try discriminate; reflexivity|]. split; [|reflexivity].
    eexists _, _, _. split; [reflexivity|]. repeat split; discriminate.
  - intros t n Hn q b m stk Hq _. destruct (feed_num t n Hn q b (m :: stk) Hq) as (s & F & V).
    exists [], (num_event n), s. split; [exact F|]. split; [exact V|]. inversion Hn; reflexivity.
  - intros t s Hc q b m stk Hq Hm. exists [JString s], [], (K SOK b TNone (m :: stk) []).
    split; [apply feed_string; auto|]. split; [apply vend_ok|]. apply app_nil_r.
  - intros w W q b m stk Hq Hm. exists [JArrayBegin; JArrayEnd], [], (K SOK b TNone (m :: stk) []).
    split; [|split; [apply vend_ok|reflexivity]].
    eapply (cfeed_step _ _ _ [JArrayBegin] (K SAR b TNone (MArray :: m :: stk) []) [JArrayEnd]); [destruct q; try discriminate; reflexivity|].
    eapply (cfeed_trans _ w _ [] (K SAR b TNone (MArray :: m :: stk) []) [JArrayEnd]); [apply feed_ws; auto|]. reflexivity.
  - intros t l _ IH q b m stk Hq Hm. destruct (IH SAR b (m :: stk) eq_refl) as (e1 & e2 & s' & F & V & E).
    exists (JArrayBegin :: flat_map tevents l ++ [JArrayEnd]), [], (K SOK b TNone (m :: stk) []).
    split; [|split; [apply vend_ok|cbn [tevents]; apply app_nil_r]].
    eapply (cfeed_step _ _ _ [JArrayBegin] (K SAR b TNone (MArray :: m :: stk) [])); [destruct q; try discriminate; reflexivity|].
    rewrite <- E, <- app_assoc. eapply cfeed_trans; [exact F|].
    rewrite <- (app_nil_r (e2 ++ _)). eapply cfeed_step; [exact (vend_close_array _ _ _ _ V)|reflexivity].
  - intros w W q b m stk Hq Hm. exists [JObjectBegin; JObjectEnd], [], (K SOK b TNone (m :: stk) []).
    split; [|split; [apply vend_ok|reflexivity]].
    eapply (cfeed_step _ _ _ [JObjectBegin] (K SOB b TNone (MKey :: m :: stk) []) [JObjectEnd]); [destruct q; try discriminate; reflexivity|].
    eapply (cfeed_trans _ w _ [] (K SOB b TNone (MKey :: m :: stk) []) [JObjectEnd]); [apply feed_ws; auto|]. reflexivity.
  - intros t m0 _ IH q b m stk Hq Hm. destruct (IH SOB b (m :: stk) eq_refl) as (e1 & e2 & s' & F & V & E).
    eexists (JObjectBegin :: _ ++ [JObjectEnd]), [], (K SOK b TNone (m :: stk) []).
    split; [|split; [apply vend_ok|cbn [tevents]; rewrite app_nil_r; rewrite <- E; reflexivity]].
    eapply (cfeed_step _ _ _ [JObjectBegin] (K SOB b TNone (MKey :: m :: stk) [])); [destruct q; try discriminate; reflexivity|].
    rewrite <- app_assoc. eapply cfeed_trans; [exact F|].
    rewrite <- (app_nil_r (e2 ++ _)). eapply cfeed_step; [exact (vend_close_object _ _ _ _ V)|reflexivity].
  - intros w1 t w2 v W1 _ IH W2 q b stk Hq. cbn [flat_map]. rewrite app_nil_r.
    eapply reads_ws; eauto.
  - intros w1 t w2 v r l W1 _ IHv W2 _ IHr q b stk Hq. cbn [flat_map].
    destruct (reads_ws _ _ _ _ _ w1 w2 q _ (IHv q b MArray stk Hq eq_refl) eq_refl (IV q Hq) W1 W2) as (e1 & e2 & s' & F & V & E).
    destruct (IHr SVA b stk eq_refl) as (f1 & f2 & s2 & F2 & V2 & E2).
    exists (e1 ++ (e2 ++ f1)), f2, s2. split; [|split; [exact V2|]].
    + replace (w1 ++ t ++ w2 ++ ","%char :: r) with ((w1 ++ t ++ w2) ++ ","%char :: r) by (now rewrite <- !app_assoc).
      eapply cfeed_trans; [exact F|]. eapply cfeed_step; [exact (vend_comma_array _ _ _ _ V)|exact F2].
    + rewrite <- E, <- E2, <- !app_assoc. reflexivity.
  - intros w1 kt k w2 w3 t w4 v W1 Hk W2 W3 _ IH W4 q b stk Hq. cbn [flat_map fst snd app]. rewrite app_nil_r.
    destruct (reads_ws _ _ _ _ _ w3 w4 SVA _ (IH SVA b MObject stk eq_refl eq_refl) eq_refl eq_refl W3 W4) as (e1 & e2 & s' & F & V & E).
    exists (JKey k :: e1), e2, s'. split; [|split; [exact V|cbn [app]; rewrite E; reflexivity]].
    eapply (cfeed_trans _ w1 _ [] _); [apply feed_ws; auto|].
    eapply (cfeed_trans _ (quoted kt) _ [JKey k] _ e1); [apply feed_key; auto|].
    eapply (cfeed_trans _ w2 _ [] _); [apply feed_ws; auto|].
    eapply (cfeed_step _ _ _ [] (K SVA b TNone (MObject :: stk) [])); [reflexivity|]. exact F.
  - intros w1 kt k w2 w3 t w4 v r m W1 Hk W2 W3 _ IH W4 _ IHr q b stk Hq. cbn [flat_map fst snd].
    destruct (reads_ws _ _ _ _ _ w3 w4 SVA _ (IH SVA b MObject stk eq_refl eq_refl) eq_refl eq_refl W3 W4) as (e1 & e2 & s' & F & V & E).
    destruct (IHr SKE b stk eq_refl) as (f1 & f2 & s2 & F2 & V2 & E2).
    exists (JKey k :: e1 ++ (e2 ++ f1)), f2, s2. split; [|split; [exact V2|]].
    + eapply (cfeed_trans _ w1 _ [] _); [apply feed_ws; auto|].
      eapply (cfeed_trans _ (quoted kt) _ [JKey k] _); [apply feed_key; auto|].
      eapply (cfeed_trans _ w2 _ [] _); [apply feed_ws; auto|].
      eapply (cfeed_step _ _ _ [] (K SVA b TNone (MObject :: stk) [])); [reflexivity|].
      replace (w3 ++ t ++ w4 ++ ","%char :: r) with ((w3 ++ t ++ w4) ++ ","%char :: r) by (now rewrite <- !app_assoc).
      eapply cfeed_trans; [exact F|]. eapply cfeed_step; [exact (vend_comma_object _ _ _ _ V)|exact F2].
    + rewrite <- E, <- E2. cbn [app]. rewrite <- !app_assoc. reflexivity.
Qed.
