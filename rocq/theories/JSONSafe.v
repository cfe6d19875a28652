(** An invariant of the JSON parser: in every state it reaches, on every further byte, it
    neither fails an assertion nor leaves its arrays (proof device). *)
From Verif Require Import Base CNum Float FloatText Value Convert Builder ParserInput ParserInputProofs JSONParserC JSONCore JsonGrammar JSONAccept.
Open Scope N_scope.

(** ** Characters by class *)

Definition class_fact (k : jclass) (c : ascii) : bool :=
  match k with
  | C_QUOTE => aeqb c (bchr 34)
  | C_BACKS => aeqb c "\"
  | C_MINUS => aeqb c "-"
  | C_POINT => aeqb c "."
  | C_ZERO | C_DIGIT => is_digit c
  | _ => true
  end && (if hex_class k then match hexval c with Some x => (x <? 16) && (hex_of c =? x) | None => false end else true)
  && (match k with C_QUOTE | C_BACKS | C_WHITE => true | _ => (32 <=? bval c) && negb (bval c =? 34) && negb (bval c =? 92) end).

Lemma class_facts c k : char_class c = Some k -> class_fact k c = true.
Proof.
  assert (S : forallb (fun c => match char_class c with Some k => class_fact k c | None => true end) all_bytes = true) by (vm_compute; reflexivity).
  pose proof (sweep _ S c) as T. cbv beta in T. intros H. now rewrite H in T.
Qed.

Lemma class_plain c k : char_class c = Some k -> trans SST k = To SST -> byte_plain [c].
Proof.
  intros H T. apply class_facts in H. unfold class_fact in H. apply andb_true_iff in H as [_ H].
  exists c. split; [reflexivity|].
  destruct k; try discriminate T; apply andb_true_iff in H as [H H3]; apply andb_true_iff in H as [H1 H2];
    apply N.leb_le in H1; apply negb_true_iff in H2, H3; apply N.eqb_neq in H2, H3; auto.
Qed.

Lemma class_hex c k : char_class c = Some k -> hex_class k = true -> exists x, hexval c = Some x.
Proof.
  intros H T. apply class_facts in H. unfold class_fact in H. rewrite T in H. apply andb_true_iff in H as [H _].
  apply andb_true_iff in H as [_ H]. destruct (hexval c); [eauto|discriminate].
Qed.

Lemma class_digit c k : char_class c = Some k -> k = C_ZERO \/ k = C_DIGIT -> is_digit c = true.
Proof.
  intros H T. apply class_facts in H. unfold class_fact in H. apply andb_true_iff in H as [H _]. apply andb_true_iff in H as [H _].
  destruct T; subst; exact H.
Qed.
Lemma class_is c k d : char_class c = Some k -> match k with C_QUOTE => d = bchr 34 | C_BACKS => d = "\"%char | C_MINUS => d = "-"%char | C_POINT => d = "."%char | _ => False end -> c = d.
Proof.
  intros H T. apply class_facts in H. unfold class_fact in H. apply andb_true_iff in H as [H _]. apply andb_true_iff in H as [H _].
  destruct k; try destruct T; subst; apply aeqb_eq in H; auto.
Qed.

(** ** The mode stack *)

Inductive bstk : list jmode -> Prop :=
| BDone : bstk [MDone]
| BArr t : bstk t -> bstk (MArray :: t)
| BObj t : bstk t -> bstk (MObject :: t).
Definition vtop (s : list jmode) : Prop := exists m t, s = m :: t /\ (m = MArray \/ m = MObject) /\ bstk t.
Definition ktop (s : list jmode) : Prop := exists t, s = MKey :: t /\ bstk t.
Lemma vtop_bstk s : vtop s -> bstk s.
Proof. intros (m & t & -> & [-> | ->] & B); constructor; exact B. Qed.

Definition sc (q : jstate) (s : list jmode) : Prop :=
  match q with
  | SGO => s = [MDone]
  | SOB | SKE | SCO => ktop s
  | SVA | SAR => vtop s
  | SOK => bstk s
  | _ => False
  end.

(** ** The parse buffer *)

Definition numok (ty : jtype) (buf : bytes) : Prop :=
  match ty with
  | TInteger => exists d r, rev buf = "-"%char :: d :: r /\ is_digit d = true
  | TUnsigned => exists d r, rev buf = d :: r /\ is_digit d = true
  | _ => False
  end.
Definition valok (ty : jtype) (buf : bytes) : Prop :=
  match ty with TInteger | TUnsigned => numok ty buf | TFloat | TNull | TTrue | TFalse => True | _ => False end.

Lemma numok_push ty c buf : numok ty buf -> numok ty (c :: buf).
Proof.
  destruct ty; cbn [numok rev]; try tauto; intros (d & r & E & H); exists d, (r ++ [c]); rewrite E; auto.
Qed.
Lemma valok_push ty c buf : valok ty buf -> valok ty (c :: buf).
Proof. destruct ty; cbn [valok]; auto; apply numok_push. Qed.
Lemma num_val ty buf : numok ty buf -> valok ty buf.
Proof. destruct ty; cbn; tauto. Qed.

Lemma digit_not_special c : is_digit c = true -> is_space c = false /\ aeqb c "-" = false /\ aeqb c "+" = false.
Proof.
  assert (S : forallb (fun c => implb (is_digit c) (negb (is_space c) && negb (aeqb c "-") && negb (aeqb c "+"))) all_bytes = true) by (vm_compute; reflexivity).
  pose proof (sweep _ S c) as T. cbv beta in T. intros H. rewrite H in T. cbn [implb] in T.
  apply andb_true_iff in T as [T T3]. apply andb_true_iff in T as [T1 T2]. apply negb_true_iff in T1, T2, T3. auto.
Qed.

Lemma valok_parse ty buf : valok ty buf -> exists e, vparse ty (rev buf) = Some e /\ Forall (fun x => match x with JString _ => False | _ => True end) e.
Proof.
  destruct ty; cbn [valok numok vparse]; try tauto.
  - intros (d & r & E & H). rewrite E. unfold sscanf_lld.
    change (take_sign (skip_space ("-"%char :: d :: r))) with (true, d :: r). cbv iota. cbn [span].
    rewrite H. destruct (span is_digit r) as [a b]. eauto.
  - intros (d & r & E & H). rewrite E. destruct (digit_not_special d H) as (S1 & S2 & S3). unfold sscanf_llu.
    assert (T : take_sign (skip_space (d :: r)) = (false, d :: r)) by (unfold skip_space; cbn [span]; rewrite S1; cbn [snd]; unfold take_sign; rewrite S2, S3; reflexivity).
    rewrite T. cbv iota. cbn [span].
    rewrite H. destruct (span is_digit r) as [a b]. eauto.
  - eauto.
  - eauto.
  - eauto.
  - eauto.
Qed.

(** ** Inside strings *)

Definition ishex (c : ascii) : Prop := exists x, hexval c = Some x.
(** A first surrogate waiting for its partner. *)
Definition waiting (w : bytes) (hi : N) : Prop :=
  (w = [] /\ hi = 0) \/ (exists h, w = "\"%char :: "u"%char :: h /\ hex4 h hi /\ 55296 <= hi < 56320).
Definition hexstate (n : nat) : jstate := match n with 0%nat => SU1 | 1%nat => SU2 | 2%nat => SU3 | _ => SU4 end.

(** The state after the text [h], which ends inside a string literal that opens after [pre]. *)
Inductive strst (pre h : bytes) : jstate -> bool -> N -> bytes -> Prop :=
| StT mid s : h = pre ++ bchr 34 :: mid -> chars byte_plain mid s -> strst pre h SST false 0 (rev s)
| StE mid s : h = pre ++ bchr 34 :: mid ++ ["\"%char] -> chars byte_plain mid s -> strst pre h SES true 0 ("\"%char :: rev s)
| StU mid s w hi hs : h = pre ++ bchr 34 :: mid ++ w ++ "\"%char :: "u"%char :: hs -> chars byte_plain mid s ->
    waiting w hi -> (List.length hs < 4)%nat -> Forall ishex hs ->
    strst pre h (hexstate (List.length hs)) false hi (rev hs ++ "u"%char :: "\"%char :: rev s)
| StD1 mid s w hi : h = pre ++ bchr 34 :: mid ++ w -> chars byte_plain mid s -> waiting w hi -> hi <> 0 ->
    strst pre h SD1 false hi (rev s)
| StD2 mid s w hi : h = pre ++ bchr 34 :: mid ++ w ++ ["\"%char] -> chars byte_plain mid s -> waiting w hi -> hi <> 0 ->
    strst pre h SD2 false hi ("\"%char :: rev s).

(** ** The invariant *)

Definition literal_type (q : jstate) (ty : jtype) : Prop :=
  match q with
  | ST1 | ST2 | ST3 => ty = TTrue
  | SF1 | SF2 | SF3 | SF4 => ty = TFalse
  | SN1 | SN2 | SN3 => ty = TNull
  | SFR | SFX | SE1 | SE2 | SE3 => ty = TFloat
  | _ => False
  end.

Inductive KI (h : bytes) : core -> Prop :=
| KIdle q b stk : sc q stk -> KI h (Core q b TNone false false 0 stk [])
| KOk b ty stk buf : valok ty buf -> vtop stk -> KI h (Core SOK b ty false false 0 stk buf)
| KMinus b stk : vtop stk -> KI h (Core SMI b TInteger false false 0 stk ["-"%char])
| KNum q b ty stk buf : q = SZE \/ q = SIT -> numok ty buf -> vtop stk -> KI h (Core q b ty false false 0 stk buf)
| KLit q b ty stk buf : literal_type q ty -> vtop stk -> KI h (Core q b ty false false 0 stk buf)
| KComment q b stk : q = SC1 \/ q = SC2 \/ q = SC3 -> sc b stk -> KI h (Core q b TNone false true 0 stk [])
| KStr pre q b esc hi stk buf : strst pre h q esc hi buf -> vtop stk \/ ktop stk -> KI h (Core q b TString esc false hi stk buf).

(** What a callback says is in the text read so far. *)
Definition evok (h : bytes) (e : jev) : Prop :=
  match e with
  | JString t => exists pre mid, h = pre ++ quoted mid /\ chars byte_plain mid t
  | _ => True
  end.

Definition good (h : bytes) (o : kout) : Prop :=
  Forall (evok h) (fst o) /\
  match snd o with Ok (p, true) => KI h p | Ok (_, false) => True | _ => False end.

Lemma good_no h p : good h (kno p).
Proof. split; [constructor|exact I]. Qed.
Lemma good_yes h p : KI h p -> good h (kyes p).
Proof. split; [constructor|assumption]. Qed.
Lemma good_evs h e o : Forall (evok h) e -> good h o -> good h (e ++ fst o, snd o).
Proof. intros F [G1 G2]. split; [|exact G2]. cbn [fst]. apply Forall_app; auto. Qed.

(** *** One character, one action *)
Lemma kj_push q b ty hi stk buf c k : char_class c = Some k -> (ty = TNone -> is_white k = false) ->
  kjchar (Core q b ty false false hi stk buf) c = kjact (Core q b ty false false hi stk (c :: buf)) (trans q k).
Proof.
  intros Hc Hw. unfold kjchar. rewrite Hc. unfold kadd_char. cbn [k_escaped k_comment k_type].
  replace (match ty with TNone => true | _ => false end && match k with C_SPACE | C_WHITE => true | _ => false end) with false
    by (destruct ty; try reflexivity; specialize (Hw eq_refl); destruct k; try discriminate; reflexivity).
  cbn [kbuf_push rbind quiet after fst snd]. destruct (kjact _ _); reflexivity.
Qed.
Lemma kj_white q b hi stk buf c k : char_class c = Some k -> is_white k = true ->
  kjchar (Core q b TNone false false hi stk buf) c = kjact (Core q b TNone false false hi stk buf) (trans q k).
Proof.
  intros Hc Hw. unfold kjchar. rewrite Hc. unfold kadd_char. cbn [k_escaped k_comment k_type].
  destruct k; try discriminate; cbn [andb after quiet fst snd]; destruct (kjact _ _); reflexivity.
Qed.
Lemma kj_comment q b hi stk buf c k : char_class c = Some k ->
  kjchar (Core q b TNone false true hi stk buf) c = kjact (Core q b TNone false true hi stk buf) (trans q k).
Proof.
  intros Hc. unfold kjchar. rewrite Hc. unfold kadd_char. cbn [k_escaped k_comment after quiet fst snd]. destruct (kjact _ _); reflexivity.
Qed.

Definition cval (ty : jtype) (buf : bytes) : Prop := (ty = TNone /\ buf = []) \/ valok ty buf.

Lemma parse_cval h q b ty stk buf : cval ty buf -> exists e, Forall (evok h) e /\ ty <> TString /\
  kparse_buffer (Core q b ty false false 0 stk buf) = (e, Ok (Core q b ty false false 0 stk [])).
Proof.
  intros [[-> ->]|V].
  - exists []. split; [constructor|]. split; [discriminate|reflexivity].
  - destruct (valok_parse ty buf V) as (e & E & F). exists e. split; [|split; [intros ->; destruct V|]].
    + eapply Forall_impl; [|exact F]. intros []; cbn; tauto.
    + apply vparse_ok. exact E.
Qed.

Lemma good_after h {A} (e : list jev) (a : A) k : Forall (evok h) e -> good h (k a) -> good h (after (e, Ok a) k).
Proof. intros F G. cbn [after fst snd]. now apply good_evs. Qed.

Lemma act_ACB h q b ty stk buf c : cval ty buf ->
  (exists m t, stk = m :: t /\ sc (match m with MArray | MObject => match q with SVA => SVA | SAR => SAR | _ => SOK end | _ => q end) stk) ->
  good h (kjact (Core q b ty false false 0 stk (c :: buf)) ACB).
Proof.
  intros V (m & t & -> & S). cbn [kjact kbuf_pop k_buf quiet kset_buf k_state k_before k_type k_escaped k_comment k_high k_stack].
  apply good_after; [constructor|]; cbv beta.
  change (kset_buf _ buf) with (Core q b ty false false 0 (m :: t) buf). destruct (parse_cval h q b ty (m :: t) buf V) as (e & F & N & ->).
  apply good_after; [exact F|]; cbv beta. unfold kjassert. cbn [k_type]. replace (negb (is_str ty)) with true by (destruct ty; try reflexivity; congruence).
  apply good_after; [constructor|]; cbv beta. cbn [k_stack]. apply good_yes. apply KComment; [auto|]. exact S.
Qed.

Lemma act_M8 h q b ty stk buf c : cval ty buf -> bstk stk -> good h (kjact (Core q b ty false false 0 stk (c :: buf)) M8).
Proof.
  intros V S. cbn [kjact kbuf_pop k_buf quiet kset_buf k_state k_before k_type k_escaped k_comment k_high k_stack].
  apply good_after; [constructor|]; cbv beta.
  change (kset_buf _ buf) with (Core q b ty false false 0 stk buf). destruct (parse_cval h q b ty stk buf V) as (e & F & N & ->).
  apply good_after; [exact F|]; cbv beta. apply good_after; [repeat constructor|]; cbv beta. unfold kjpop. cbn [k_stack].
  destruct S as [|t S|t S]; cbn [jmode_eqb]; try apply good_no. apply good_yes, KIdle. exact S.
Qed.

Lemma act_M7 h q b ty stk buf c : cval ty buf -> bstk stk -> good h (kjact (Core q b ty false false 0 stk (c :: buf)) M7).
Proof.
  intros V S. cbn [kjact kbuf_pop k_buf quiet kset_buf k_state k_before k_type k_escaped k_comment k_high k_stack].
  apply good_after; [constructor|]; cbv beta.
  change (kset_buf _ buf) with (Core q b ty false false 0 stk buf). destruct (parse_cval h q b ty stk buf V) as (e & F & N & ->).
  apply good_after; [exact F|]; cbv beta. apply good_after; [repeat constructor|]; cbv beta. unfold kjpop. cbn [k_stack].
  destruct S as [|t S|t S]; cbn [jmode_eqb]; try apply good_no. apply good_yes, KIdle. exact S.
Qed.

Lemma act_M3 h q b ty stk buf c : cval ty buf -> bstk stk -> good h (kjact (Core q b ty false false 0 stk (c :: buf)) M3).
Proof.
  intros V S. cbn [kjact kbuf_pop k_buf quiet kset_buf k_state k_before k_type k_escaped k_comment k_high k_stack].
  apply good_after; [constructor|]; cbv beta.
  change (kset_buf _ buf) with (Core q b ty false false 0 stk buf). destruct (parse_cval h q b ty stk buf V) as (e & F & N & ->).
  apply good_after; [exact F|]; cbv beta. cbn [k_stack].
  assert (T : negb (is_str ty) = true) by (destruct ty; try reflexivity; congruence).
  destruct S as [|t S|t S].
  - apply good_no.
  - unfold kjassert. cbn [k_type]. rewrite T. apply good_after; [constructor|]; cbv beta. apply good_yes, KIdle. exists MArray, t. auto.
  - unfold kjpop. cbn [k_stack jmode_eqb]. apply good_after; [constructor|]; cbv beta. unfold kjassert. cbn [kpush k_type kset_stack]. rewrite T.
    apply good_after; [constructor|]; cbv beta. apply good_yes, KIdle. exists t. auto.
Qed.

Lemma act_M5 h q b stk c : bstk stk -> good h (kjact (Core q b TNone false false 0 stk [c]) M5).
Proof. intros S. cbn. split; [repeat constructor|]. apply KIdle. exists MArray, stk. auto. Qed.
Lemma act_M6 h q b stk c : bstk stk -> good h (kjact (Core q b TNone false false 0 stk [c]) M6).
Proof. intros S. cbn. split; [repeat constructor|]. apply KIdle. exists stk. auto. Qed.
Lemma act_M9 h q b stk c : ktop stk -> good h (kjact (Core q b TNone false false 0 stk [c]) M9).
Proof. intros (t & -> & S). cbn. split; [repeat constructor|]. apply KIdle. exact S. Qed.
Lemma act_M2 h q b stk c : ktop stk -> good h (kjact (Core q b TNone false false 0 stk [c]) M2).
Proof. intros (t & -> & S). cbn. split; [repeat constructor|]. apply KIdle. exists MObject, t. auto. Qed.
Lemma act_ASB h q b stk : vtop stk \/ ktop stk -> good (h ++ [bchr 34]) (kjact (Core q b TNone false false 0 stk [bchr 34]) ASB).
Proof.
  intros S. cbn. split; [constructor|]. apply (KStr _ h); [|exact S]; cbn [k_escaped k_high k_buf k_before k_stack]. apply (StT _ _ [] []); [reflexivity|constructor].
Qed.

(** *** Idle states *)
Lemma good_idle h q b stk c : sc q stk -> good (h ++ [c]) (kjchar (Core q b TNone false false 0 stk []) c).
Proof.
  intros S. destruct (char_class c) as [k|] eqn:Ec; [|unfold kjchar; rewrite Ec; apply good_no].
  assert (VI : cval TNone []) by (left; auto).
  destruct (is_white k) eqn:W.
  - rewrite (kj_white _ _ _ _ _ _ k Ec W).
    destruct k; try discriminate; destruct q; cbn [sc] in S; try (exfalso; exact S); apply good_yes, KIdle, S.
  - rewrite (kj_push _ _ _ _ _ _ _ k Ec (fun _ => W)).
    assert (A : sc q stk -> exists m t, stk = m :: t /\ sc (match m with MArray | MObject => match q with SVA => SVA | SAR => SAR | _ => SOK end | _ => q end) stk).
    { clear. destruct q; cbn [sc]; try tauto.
      - intros ->. exists MDone, []. split; reflexivity.
      - intros H. destruct H as [|t H|t H]; [exists MDone, []|exists MArray, t|exists MObject, t]; (split; [reflexivity|]; constructor; exact H) || (split; [reflexivity|]; constructor).
      - intros (t & -> & B). exists MKey, t. split; [reflexivity|]. exists t; auto.
      - intros (t & -> & B). exists MKey, t. split; [reflexivity|]. exists t; auto.
      - intros (t & -> & B). exists MKey, t. split; [reflexivity|]. exists t; auto.
      - intros (m & t & -> & [->| ->] & B); eexists _, t; (split; [reflexivity|]); eexists _, t; auto.
      - intros (m & t & -> & [->| ->] & B); eexists _, t; (split; [reflexivity|]); eexists _, t; auto. }
    assert (B : match q with SVA | SAR | SGO => bstk stk | _ => True end).
    { destruct q; auto; cbn [sc] in S; try (apply vtop_bstk, S). subst. constructor. }
    specialize (A S).
    destruct k; try discriminate W; destruct q; cbn [sc] in S; try (exfalso; exact S); cbn [trans nth class_idx jrow];
      try apply good_no; try (apply act_ACB; [exact VI|exact A]);
      try (apply act_M5; exact B); try (apply act_M6; exact B); try (apply act_M7; [exact VI|exact S]);
      try (apply act_M8; [exact VI|exact S]); try (apply act_M3; [exact VI|exact S]);
      try (apply act_M9; exact S); try (apply act_M2; exact S);
      try (apply act_M7; [exact VI|apply vtop_bstk, S]);
      try (pose proof (class_is c C_QUOTE _ Ec eq_refl) as Q; subst c; apply act_ASB; auto).
    all: try (apply good_yes, KLit; [reflexivity|exact S]).
    all: try (pose proof (class_is c C_MINUS _ Ec eq_refl) as Q; subst c; apply good_yes, KMinus; exact S).
    all: pose proof (class_digit c _ Ec ltac:(auto)) as D; apply good_yes, KNum; [auto|exists c, []; auto|exact S].
Qed.

(** *** Comments *)
Lemma good_comment h q b stk c : q = SC1 \/ q = SC2 \/ q = SC3 -> sc b stk -> good (h ++ [c]) (kjchar (Core q b TNone false true 0 stk []) c).
Proof.
  intros Q S. destruct (char_class c) as [k|] eqn:Ec; [|unfold kjchar; rewrite Ec; apply good_no].
  rewrite (kj_comment _ _ _ _ _ _ k Ec).
  destruct Q as [->|[->| ->]]; destruct k; cbn [trans nth class_idx jrow]; try apply good_no;
    try (apply good_yes, KComment; [auto|exact S]).
  cbn. split; [constructor|]. apply KIdle. exact S.
Qed.

(** *** Numbers and literals *)
Lemma good_value h q b ty stk buf c : vtop stk ->
  (q = SOK /\ valok ty buf) \/ (q = SMI /\ ty = TInteger /\ buf = ["-"%char]) \/ ((q = SZE \/ q = SIT) /\ numok ty buf) \/ literal_type q ty ->
  good (h ++ [c]) (kjchar (Core q b ty false false 0 stk buf) c).
Proof.
  intros S H. destruct (char_class c) as [k|] eqn:Ec; [|unfold kjchar; rewrite Ec; apply good_no].
  assert (NT : ty <> TNone).
  { intros ->. destruct H as [[_ H]|[(_ & H & _)|[[_ H]|H]]]; [exact H|discriminate H|exact H|]. destruct q; first [exact H|discriminate H]. }
  rewrite (kj_push _ _ _ _ _ _ _ k Ec (fun E => False_ind _ (NT E))).
  assert (V : q <> SMI -> valok ty buf).
  { intros NM. destruct H as [[_ H]|[(H & _ & _)|[[_ H]|H]]]; [exact H|congruence|apply num_val, H|].
    destruct q; try (exfalso; exact H); cbn [literal_type] in H; subst ty; exact I. }
  assert (A : q <> SVA -> q <> SAR -> exists m t, stk = m :: t /\ sc (match m with MArray | MObject => match q with SVA => SVA | SAR => SAR | _ => SOK end | _ => q end) stk).
  { destruct S as (m & t & -> & [->| ->] & B); intros N1 N2; eexists _, t; (split; [reflexivity|]);
      destruct q; try congruence; constructor; exact B. }
  pose proof (vtop_bstk _ S) as B.
  assert (KL : forall q', literal_type q' ty -> good (h ++ [c]) (kyes (Core q' b ty false false 0 stk (c :: buf)))).
  { intros q' L. apply good_yes, KLit; assumption. }
  destruct q; try (exfalso; destruct H as [[H _]|[(H & _ & _)|[[[H|H] _]|H]]]; first [discriminate H|exact H]);
    destruct k; cbn [trans nth class_idx jrow]; try apply good_no;
    try (apply act_ACB; [right; apply V; discriminate|apply A; discriminate]);
    try (apply act_M3; [right; apply V; discriminate|exact B]);
    try (apply act_M7; [right; apply V; discriminate|exact B]);
    try (apply act_M8; [right; apply V; discriminate|exact B]);
    try (apply good_yes, KOk; [apply valok_push, V; discriminate|exact S]).
  all: try (destruct H as [[H _]|[(H & _ & _)|[[[H|H] _]|H]]]; try discriminate H; apply KL; exact H).
  all: try (destruct H as [[H _]|[(H & -> & ->)|[[[H|H] H2]|H]]]; try discriminate H; try destruct H;
            apply good_yes, KNum; [auto|apply numok_push, H2|exact S]).
  all: try (destruct H as [[H _]|[(_ & -> & ->)|[[[H|H] _]|H]]]; try discriminate H; try destruct H;
    pose proof (class_digit c _ Ec ltac:(auto)) as D; apply good_yes, KNum; [auto|exists c, []; auto|exact S]).
  all: destruct H as [[H _]|[(H & _ & _)|[[_ H]|H]]]; try discriminate H; try destruct H.
  all: destruct ty; try (exfalso; exact H); try (pose proof (class_is c C_POINT _ Ec eq_refl) as Q; subst c).
  all: cbn [kjact kjassert k_type is_numty k_buf]; try change (aeqb "." ".") with true.
  all: repeat (apply good_after; [apply Forall_nil|]; cbv beta).
  all: apply good_yes, KLit; [reflexivity|exact S].
Qed.

(** *** Strings *)
Lemma hex_hex a b c d : ishex a -> ishex b -> ishex c -> ishex d -> exists x, hex4 [a; b; c; d] x /\ x < 65536.
Proof.
  intros (x & X) (y & Y) (z & Z) (t & T). exists (x * 4096 + y * 256 + z * 16 + t). split; [constructor; assumption|].
  destruct (hex_char _ _ X) as (_ & ? & _), (hex_char _ _ Y) as (_ & ? & _), (hex_char _ _ Z) as (_ & ? & _), (hex_char _ _ T) as (_ & ? & _). lia.
Qed.

Lemma chars_snoc_plain mid s c : chars byte_plain mid s -> byte_plain [c] -> chars byte_plain (mid ++ [c]) (s ++ [c]).
Proof. intros H P. apply chars_app; [exact H|]. apply (CPlain _ [c]); [exact P|constructor]. Qed.

Lemma decode_low h x q b stk rb : hex4 h x -> 56320 <= x < 57344 -> exists r,
  kdecode_unicode (Core q b TString false false 0 stk (rev h ++ "u"%char :: "\"%char :: rb)) = Ok (r, false).
Proof.
  intros H S. destruct H as [c1 c2 c3 c4 x1 x2 x3 x4 H1 H2 H3 H4].
  destruct (hex_char _ _ H1) as (E1 & L1 & _), (hex_char _ _ H2) as (E2 & L2 & _),
    (hex_char _ _ H3) as (E3 & L3 & _), (hex_char _ _ H4) as (E4 & L4 & _).
  cbn [rev app]. unfold kdecode_unicode. cbn [k_buf]. rewrite E1, E2, E3, E4.
  rewrite !(proj2 (N.leb_gt 16 _)) by assumption. cbn [orb].
  set (x := x1 * 4096 + x2 * 256 + x3 * 16 + x4) in *.
  assert (Hx : x < 65536) by lia.
  destruct (surrogates x Hx) as (Sh & Sl & _).
  cbn [kset_buf k_high k_state k_before k_type k_escaped k_comment k_stack N.eqb negb].
  rewrite (proj2 (N.ltb_ge x 128)), (proj2 (N.ltb_ge x 2048)) by lia.
  rewrite Sh, Sl. rewrite (proj2 (N.ltb_ge x 56320)), (proj2 (N.leb_le 56320 x)), (proj2 (N.ltb_lt x 57344)) by lia.
  rewrite andb_false_r. cbn [andb]. eauto.
Qed.

Lemma decode_badpair h x hi q b stk rb : hex4 h x -> x < 65536 -> ~ (56320 <= x < 57344) -> hi <> 0 -> exists r,
  kdecode_unicode (Core q b TString false false hi stk (rev h ++ "u"%char :: "\"%char :: rb)) = Ok (r, false).
Proof.
  intros H Hx S T. destruct H as [c1 c2 c3 c4 x1 x2 x3 x4 H1 H2 H3 H4].
  destruct (hex_char _ _ H1) as (E1 & L1 & _), (hex_char _ _ H2) as (E2 & L2 & _),
    (hex_char _ _ H3) as (E3 & L3 & _), (hex_char _ _ H4) as (E4 & L4 & _).
  cbn [rev app]. unfold kdecode_unicode. cbn [k_buf]. rewrite E1, E2, E3, E4.
  rewrite !(proj2 (N.leb_gt 16 _)) by assumption. cbn [orb].
  set (x := x1 * 4096 + x2 * 256 + x3 * 16 + x4) in *.
  destruct (surrogates x Hx) as (_ & Sl & _).
  cbn [kset_buf kset_high k_high k_state k_before k_type k_escaped k_comment k_stack].
  rewrite (proj2 (N.eqb_neq hi 0)) by lia. cbn [negb].
  rewrite Sl. replace ((56320 <=? x) && (x <? 57344)) with false; [eauto|].
  symmetry. destruct (N.leb_spec 56320 x), (N.ltb_spec x 57344); try reflexivity. lia.
Qed.

(** Inside a string literal. *)
Definition sgood (pre h : bytes) (b : jstate) (stk : list jmode) (o : kout) : Prop :=
  fst o = [] /\
  match snd o with
  | Ok (p, true) => exists q esc hi buf, p = Core q b TString esc false hi stk buf /\ strst pre h q esc hi buf
  | Ok (_, false) => True
  | _ => False
  end.
Lemma sgood_no pre h b stk p : sgood pre h b stk (kno p).
Proof. split; [reflexivity|exact I]. Qed.
Lemma sgood_yes pre h b stk q esc hi buf : strst pre h q esc hi buf -> sgood pre h b stk (kyes (Core q b TString esc false hi stk buf)).
Proof. split; [reflexivity|]. exists q, esc, hi, buf. auto. Qed.
Lemma sgood_after pre h b stk {A} (a : A) k : sgood pre h b stk (k a) -> sgood pre h b stk (after ([], Ok a) k).
Proof. intros G. exact G. Qed.

Lemma str_u4 h q b stk pre mid s w hi a1 a2 a3 c :
  h = pre ++ bchr 34 :: mid ++ w ++ "\"%char :: "u"%char :: [a1; a2; a3] -> chars byte_plain mid s -> waiting w hi ->
  ishex a1 -> ishex a2 -> ishex a3 -> ishex c ->
  sgood pre (h ++ [c]) b stk (kjact (Core q b TString false false hi stk (c :: a3 :: a2 :: a1 :: "u"%char :: "\"%char :: rev s)) AUC).
Proof.
  intros -> C W A1 A2 A3 A4. destruct (hex_hex a1 a2 a3 c A1 A2 A3 A4) as (x & X & Bx).
  change (c :: a3 :: a2 :: a1 :: "u"%char :: "\"%char :: rev s) with (rev [a1; a2; a3; c] ++ "u"%char :: "\"%char :: rev s).
  assert (HH : forall tl, (pre ++ bchr 34 :: mid ++ w ++ "\"%char :: "u"%char :: [a1; a2; a3]) ++ c :: tl
               = pre ++ bchr 34 :: mid ++ w ++ ("\"%char :: "u"%char :: [a1; a2; a3; c]) ++ tl).
  { intros tl. rewrite <- app_assoc. cbn [app]. do 2 f_equal. rewrite <- !app_assoc. reflexivity. }
  cbn [kjact]. rewrite HH. clear HH. rewrite app_nil_r.
  destruct W as [[-> ->]|(h1 & -> & H1 & B1)].
  - destruct (N.le_gt_cases 55296 x) as [G1|G1]; [destruct (N.lt_ge_cases x 56320) as [G2|G2]; [|destruct (N.lt_ge_cases x 57344) as [G3|G3]]|].
    + rewrite (decode_high _ _ q b stk (rev s) X) by lia. apply sgood_after; cbv beta. cbn [k_high].
      rewrite (proj2 (N.eqb_neq x 0)) by lia. apply sgood_yes; cbn [k_escaped k_high k_buf k_before k_stack].
      eapply StD1; [reflexivity|exact C| |lia]. right. eexists. split; [reflexivity|]. auto.
    + destruct (decode_low _ _ q b stk (rev s) X) as (r & ->); [lia|]. apply sgood_after; cbv beta. apply sgood_no.
    + rewrite (decode_plain _ _ q b stk (rev s) X) by (right; lia). apply sgood_after; cbv beta. cbn [k_high N.eqb].
      apply sgood_yes; cbn [k_escaped k_high k_buf k_before k_stack]. rewrite <- rev_app_distr. eapply StT; [reflexivity|]. cbn [app].
      apply chars_app; [exact C|]. rewrite <- (app_nil_r (utf8 x)). apply (CUni _ [a1; a2; a3; c] x []); [exact X|right; lia|constructor].
    + rewrite (decode_plain _ _ q b stk (rev s) X) by (left; lia). apply sgood_after; cbv beta. cbn [k_high N.eqb].
      apply sgood_yes; cbn [k_escaped k_high k_buf k_before k_stack]. rewrite <- rev_app_distr. eapply StT; [reflexivity|]. cbn [app].
      apply chars_app; [exact C|]. rewrite <- (app_nil_r (utf8 x)). apply (CUni _ [a1; a2; a3; c] x []); [exact X|left; lia|constructor].
  - destruct (N.le_gt_cases 56320 x) as [G1|G1]; [destruct (N.lt_ge_cases x 57344) as [G2|G2]|].
    + rewrite (decode_pair _ _ hi q b stk (rev s) X) by lia. apply sgood_after; cbv beta. cbn [k_high N.eqb].
      apply sgood_yes; cbn [k_escaped k_high k_buf k_before k_stack]. rewrite <- rev_app_distr. eapply StT; [reflexivity|].
      apply chars_app; [exact C|]. cbn [app]. rewrite <- (app_nil_r (utf8 _)). apply (CPair _ h1 hi [a1; a2; a3; c] x []); [exact H1|exact B1|exact X|lia|constructor].
    + destruct (decode_badpair _ _ hi q b stk (rev s) X) as (r & ->); [lia|lia|lia|]. apply sgood_after; cbv beta. apply sgood_no.
    + destruct (decode_badpair _ _ hi q b stk (rev s) X) as (r & ->); [lia|lia|lia|]. apply sgood_after; cbv beta. apply sgood_no.
Qed.

Lemma str_step pre h q b esc hi stk buf c : strst pre h q esc hi buf -> (q = SST -> c <> bchr 34) ->
  sgood pre (h ++ [c]) b stk (kjchar (Core q b TString esc false hi stk buf) c).
Proof.
  intros H NQ. destruct (char_class c) as [k|] eqn:Ec; [|unfold kjchar; rewrite Ec; apply sgood_no].
  destruct H as [mid s E C|mid s E C|mid s w hi hs E C W L F|mid s w hi E C W N|mid s w hi E C W N].
  - rewrite (kj_push _ _ _ _ _ _ _ k Ec) by discriminate.
    assert (E1 : h ++ [c] = pre ++ bchr 34 :: mid ++ [c]) by (rewrite E, <- app_assoc; reflexivity).
    destruct k; cbn [trans nth class_idx jrow]; try apply sgood_no;
      try (apply sgood_yes; change (c :: rev s) with (rev [c] ++ rev s); rewrite <- rev_app_distr;
           eapply StT; [exact E1|]; apply chars_snoc_plain; [exact C|eapply class_plain; [exact Ec|reflexivity]]).
    + pose proof (class_is c C_QUOTE _ Ec eq_refl) as Q; subst c. exfalso. apply NQ; reflexivity.
    + pose proof (class_is c C_BACKS _ Ec eq_refl) as Q; subst c. apply sgood_yes. eapply StE; [exact E1|exact C].
  - unfold kjchar. rewrite Ec. unfold kadd_char, kadd_escaped. cbn [k_escaped kset_escaped kbuf_pop k_buf rbind k_type k_state k_before k_comment k_high k_stack].
    change (kset_buf _ (rev s)) with (Core SES b TString false false 0 stk (rev s)).
    assert (E1 : forall t, (h ++ [c]) ++ t = pre ++ bchr 34 :: mid ++ "\"%char :: c :: t)
      by (intros t; rewrite E, <- !app_assoc; cbn [app]; rewrite <- app_assoc; reflexivity).
    specialize (E1 []). rewrite app_nil_r in E1.
    assert (SH : forall x, short_escape c = Some x -> trans SES k = To SST -> sgood pre (h ++ [c]) b stk
       (after (quiet (do s1 <- kbuf_push (Core SES b TString false false 0 stk (rev s)) (bchr x); Ok (s1, true)))
          (fun '(s, ok) => if ok then kjact s (trans (k_state s) k) else kno s))).
    { intros x SE T. cbn [kbuf_push rbind quiet]. apply sgood_after; cbv beta. cbn [kset_buf k_state]. rewrite T.
      match goal with |- sgood ?g1 ?g2 ?g3 ?g4 _ => change (sgood g1 g2 g3 g4 (kyes (Core SST b TString false false 0 stk (rev [bchr x] ++ rev s)))) end.
      apply sgood_yes. rewrite <- rev_app_distr.
      eapply StT; [exact E1|]. apply chars_app; [exact C|]. apply (CShort _ c x [] []); [exact SE|constructor]. }
    clear E.
    assert (PC : forall d, aeqb c d = true -> c = d) by (intros d; apply aeqb_eq).
    destruct (aeqb c "b") eqn:Q1; [apply PC in Q1; subst c; vm_compute in Ec; injection Ec as <-; apply (SH 8); reflexivity|].
    destruct (aeqb c "f") eqn:Q2; [apply PC in Q2; subst c; vm_compute in Ec; injection Ec as <-; apply (SH 12); reflexivity|].
    destruct (aeqb c "n") eqn:Q3; [apply PC in Q3; subst c; vm_compute in Ec; injection Ec as <-; apply (SH 10); reflexivity|].
    destruct (aeqb c "r") eqn:Q4; [apply PC in Q4; subst c; vm_compute in Ec; injection Ec as <-; apply (SH 13); reflexivity|].
    destruct (aeqb c "t") eqn:Q5; [apply PC in Q5; subst c; vm_compute in Ec; injection Ec as <-; apply (SH 9); reflexivity|].
    destruct (aeqb c (bchr 34)) eqn:Q6; [apply PC in Q6; subst c; vm_compute in Ec; injection Ec as <-; apply (SH 34); reflexivity|].
    destruct (aeqb c "\") eqn:Q7; [apply PC in Q7; subst c; vm_compute in Ec; injection Ec as <-; apply (SH 92); reflexivity|].
    destruct (aeqb c "/") eqn:Q8; [apply PC in Q8; subst c; vm_compute in Ec; injection Ec as <-; apply (SH 47); reflexivity|].
    destruct (aeqb c "u") eqn:Q9; [|apply sgood_after; apply sgood_no].
    apply PC in Q9; subst c; vm_compute in Ec; injection Ec as <-.
    cbn [kbuf_push rbind quiet]. apply sgood_after; cbv beta. 
    match goal with |- sgood ?g1 ?g2 ?g3 ?g4 _ => change (sgood g1 g2 g3 g4 (kyes (Core (hexstate (List.length (@nil ascii))) b TString false false 0 stk (rev (@nil ascii) ++ "u"%char :: "\"%char :: rev s)))) end.
    apply sgood_yes. apply (StU _ _ mid s [] 0 []); [exact E1|exact C|left; auto|cbn; lia|constructor].
  - rewrite (kj_push _ _ _ _ _ _ _ k Ec) by discriminate.
    assert (E1 : h ++ [c] = pre ++ bchr 34 :: mid ++ w ++ "\"%char :: "u"%char :: hs ++ [c]).
    { rewrite E, <- app_assoc. cbn [app]. rewrite <- !app_assoc. reflexivity. }
    assert (HC : hex_class k = true -> ishex c) by (apply class_hex, Ec).
    assert (HK : forall q', hex_class k = true -> (List.length hs < 3)%nat -> q' = hexstate (List.length (hs ++ [c])) ->
        sgood pre (h ++ [c]) b stk (kyes (Core q' b TString false false hi stk (c :: rev hs ++ "u"%char :: "\"%char :: rev s)))).
    { intros q' X LL ->. apply sgood_yes. change (c :: rev hs ++ ?x) with (rev [c] ++ rev hs ++ x).
      rewrite app_assoc, <- rev_app_distr. apply (StU _ _ mid s w hi); [exact E1|exact C|exact W| |].
      - rewrite app_length. cbn [List.length]. lia.
      - apply Forall_app. split; [exact F|]. constructor; [apply HC, X|constructor]. }
    destruct hs as [|a1 [|a2 [|a3 [|a4 hs]]]]; cbn [List.length] in L; try lia; cbn [List.length hexstate].
    + destruct k; cbn [trans nth class_idx jrow]; try apply sgood_no; apply HK; try reflexivity; cbn; lia.
    + destruct k; cbn [trans nth class_idx jrow]; try apply sgood_no; apply HK; try reflexivity; cbn; lia.
    + destruct k; cbn [trans nth class_idx jrow]; try apply sgood_no; apply HK; try reflexivity; cbn; lia.
    + inversion F as [|? ? F1 F']; subst. inversion F' as [|? ? F2 F'']; subst. inversion F'' as [|? ? F3 _]; subst.
      cbn [rev app].
      destruct k; cbn [trans nth class_idx jrow]; try apply sgood_no; apply (str_u4 _ _ b stk pre mid s w hi a1 a2 a3 c eq_refl); auto.
  - rewrite (kj_push _ _ _ _ _ _ _ k Ec) by discriminate.
    destruct k; cbn [trans nth class_idx jrow]; try apply sgood_no.
    pose proof (class_is c C_BACKS _ Ec eq_refl) as Q; subst c. apply sgood_yes.
    eapply StD2; [|exact C|exact W|exact N]. rewrite E, <- app_assoc. cbn [app]. rewrite <- app_assoc. reflexivity.
  - rewrite (kj_push _ _ _ _ _ _ _ k Ec) by discriminate.
    destruct k; cbn [trans nth class_idx jrow]; try apply sgood_no.
    assert (Q : c = "u"%char).
    { assert (SW : forallb (fun c => match char_class c with Some C_LOW_U => aeqb c "u" | _ => true end) all_bytes = true) by (vm_compute; reflexivity).
      pose proof (sweep _ SW c) as T. cbv beta in T. rewrite Ec in T. now apply aeqb_eq. }
    subst c. 
    match goal with |- sgood ?g1 ?g2 ?g3 ?g4 _ => change (sgood g1 g2 g3 g4 (kyes (Core (hexstate (List.length (@nil ascii))) b TString false false hi stk (rev (@nil ascii) ++ "u"%char :: "\"%char :: rev s)))) end.
    apply sgood_yes. apply (StU _ _ mid s w hi []); [|exact C|exact W|cbn; lia|constructor].
    rewrite E, <- app_assoc. cbn [app]. rewrite <- !app_assoc. reflexivity.
Qed.

(** The closing quotation mark. *)
Lemma kj_quote b m t buf : value_mode m = true ->
  kjchar (Core SST b TString false false 0 (m :: t) buf) (bchr 34) = ([JString (rev buf)], Ok (Core SOK b TNone false false 0 (m :: t) [], true)).
Proof. destruct m; try discriminate; reflexivity. Qed.
Lemma kj_quote_key b t buf :
  kjchar (Core SST b TString false false 0 (MKey :: t) buf) (bchr 34) = ([JKey (rev buf)], Ok (Core SCO b TNone false false 0 (MKey :: t) [], true)).
Proof. reflexivity. Qed.

Lemma good_str pre h q b esc hi stk buf c : strst pre h q esc hi buf -> vtop stk \/ ktop stk ->
  good (h ++ [c]) (kjchar (Core q b TString esc false hi stk buf) c).
Proof.
  intros H S.
  assert (D : (q = SST /\ c = bchr 34) \/ (q = SST -> c <> bchr 34)).
  { destruct (aeqb c (bchr 34)) eqn:E; [apply aeqb_eq in E|apply aeqb_neq in E; auto].
    destruct q; auto; right; discriminate. }
  destruct D as [[-> ->]|D].
  - inversion H as [mid s E C| |? ? ? ? hs ? ? ? ? ? Q| | ]; subst; [|destruct hs as [|? [|? [|? ?]]]; discriminate Q].
    destruct S as [(m & t & -> & M & B)|(t & -> & B)].
    + rewrite kj_quote by (destruct M as [->| ->]; reflexivity). split; [|apply KIdle; destruct M as [->| ->]; constructor; exact B].
      constructor; [|constructor]. exists pre, mid. rewrite rev_involutive. split; [|exact C]. unfold quoted. rewrite <- app_assoc. reflexivity.
    + rewrite kj_quote_key. split; [repeat constructor|]. apply KIdle. exists t. auto.
  - destruct (str_step pre h q b esc hi stk buf c H D) as [E G]. split; [rewrite E; constructor|].
    destruct (snd (kjchar _ c)) as [[p [|]]| | | |]; auto. destruct G as (q' & esc' & hi' & buf' & -> & G). eapply KStr; eauto.
Qed.

(** Every character leads from a good state to a good state. *)
Lemma KI_char h p c : KI h p -> good (h ++ [c]) (kjchar p c).
Proof.
  intros [q b stk S|b ty stk buf V S|b stk S|q b ty stk buf Q V S|q b ty stk buf L S|q b stk Q S|pre q b esc hi stk buf X S].
  - apply good_idle, S.
  - apply good_value; auto.
  - apply good_value; auto.
  - apply good_value; auto.
  - apply good_value; auto.
  - apply good_comment; auto.
  - eapply good_str; eauto.
Qed.
