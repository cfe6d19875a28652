(** What the bundle header parser makes of a text, for any input object that delivers it. *)
From Verif Require Import Base CNum Float FloatText Value Emit Convert Builder ParserInput ParserInputProofs P_ParserInput JSONEmitter
  GuessFormat P_GuessFormat GuessScalar Deserialize P_JSONInput JsonTextProofs P_JSONEmit Bundle.
Open Scope N_scope.

Definition is_nl (c : ascii) : bool := aeqb c (bchr 10).
Definition no_nl (s : bytes) : Prop := forallb (fun c => negb (is_nl c)) s = true.

(** A text as complete lines and a rest without newline. *)
Definition joined (ls : list bytes) (tail : bytes) : bytes := flat_map (fun l => l ++ nl) ls ++ tail.

Lemma lines_exist text : exists ls tail, text = joined ls tail /\ Forall no_nl ls /\ no_nl tail.
Proof.
  induction text as [|c t (ls & tail & E & F & N)].
  - exists [], []. repeat split; constructor.
  - destruct (is_nl c) eqn:Q.
    + apply aeqb_eq in Q. subst c. exists ([] :: ls), tail. subst t. repeat split; auto. constructor; [reflexivity|auto].
    + destruct ls as [|l ls].
      * exists [], (c :: tail). subst t. repeat split; auto. unfold no_nl in *. cbn [forallb]. rewrite Q. exact N.
      * exists ((c :: l) :: ls), tail. subst t. inversion F; subst. repeat split; auto. constructor; auto.
        unfold no_nl in *. cbn [forallb]. rewrite Q. auto.
Qed.

Lemma span_none (f : ascii -> bool) s : forallb f s = true -> span f s = (s, []).
Proof. induction s as [|c s IH]; cbn; [auto|]. intros H. apply andb_true_iff in H as [-> H]. rewrite IH by exact H. reflexivity. Qed.
Lemma span_stop (f : ascii -> bool) s c t : forallb f s = true -> f c = false -> span f (s ++ c :: t) = (s, c :: t).
Proof. induction s as [|d s IH]; cbn; intros H E; [rewrite E; reflexivity|]. apply andb_true_iff in H as [-> H]. rewrite IH by auto. reflexivity. Qed.
Lemma forallb_drop {A} (f : A -> bool) n s : forallb f s = true -> forallb f (drop n s) = true.
Proof.
  unfold drop. revert s. induction (N.to_nat n) as [|k IH]; intros s H; [exact H|]. destruct s; [reflexivity|]. cbn in *.
  apply andb_true_iff in H as [_ H]. apply IH, H.
Qed.

(** ** Entries *)

(** What a line contributes: its key, and the vector [value] with the blanks at the end removed. *)
Definition entry (line : bytes) : option (bytes * bytes) :=
  match scan_line line with
  | Some (k, v) => if beqb (c_str k) version_key then None else Some (c_str k, trim_value v)
  | None => None
  end.

Definition guesses (errno : list bool) (ts : list bytes) : list value * list bool :=
  fold_left (fun a t => (fst a ++ [guess_value (guess_scalar (hd false (snd a)) t)], tl (snd a))) ts ([], errno).

(** The Variant for a value, and the remaining errno oracle. *)
Definition entry_value (errno : list bool) (v : bytes) : value * list bool :=
  let cs := c_str v in
  if ((List.length (tokens cs) <=? 1)%nat && negb (bar_at_end v))%bool then
    (guess_value (guess_scalar (hd false errno) (strtok_rest cs)), tl errno)
  else let '(l, e) := guesses errno (tokens cs) in (VList l, e).

Fixpoint entries (errno : list bool) (ls : list bytes) (m : list (bytes * value)) : list (bytes * value) * list bool :=
  match ls with
  | [] => (m, errno)
  | l :: t => match entry l with
              | None => entries errno t m
              | Some (k, v) => let '(x, e) := entry_value errno v in entries e t (mset k x m)
              end
  end.

Lemma length_span (f : ascii -> bool) s : List.length s = (List.length (fst (span f s)) + List.length (snd (span f s)))%nat.
Proof. induction s as [|c s IH]; [reflexivity|]. cbn. destruct (f c); [|reflexivity]. destruct (span f s). cbn in *. lia. Qed.
Lemma tokens_len fuel : forall s, (List.length (tokens_of fuel s) <= List.length s)%nat.
Proof.
  induction fuel as [|f IH]; intros s; [cbn; lia|]. cbn [tokens_of]. pose proof (length_span is_bar s) as L.
  destruct (snd (span is_bar s)) as [|c r] eqn:E; [cbn; lia|].
  pose proof (length_span (fun c => negb (is_bar c)) (c :: r)) as L2.
  destruct (span (fun c => negb (is_bar c)) (c :: r)) as [t r'] eqn:E2. cbn [fst snd List.length] in *. specialize (IH r').
  assert ((0 < List.length t)%nat); [|lia]. clear - E E2. cbn [span] in E2.
  assert (K : is_bar c = false).
  { clear E2. revert c r E. induction s as [|d s IH]; intros c r E; [discriminate|]. cbn in E. destruct (is_bar d) eqn:Q.
    - destruct (span is_bar s) eqn:X. cbn in *. eapply IH. exact E.
    - cbn in E. injection E as <- <-. exact Q. }
  rewrite K in E2. cbn in E2. destruct (span _ r). injection E2 as <- _. cbn. lia.
Qed.
Lemma c_str_len s : (List.length (c_str s) <= List.length s)%nat.
Proof. induction s as [|c s IH]; [reflexivity|]. cbn [c_str]. destruct (aeqb c (bchr 0)); cbn; lia. Qed.

Lemma skip_len s : (List.length (skip_space s) <= List.length s)%nat.
Proof. unfold skip_space. pose proof (length_span is_space s). lia. Qed.
Lemma scan_key_len s : forall k r, scan_key s = Some (k, r) -> (List.length r <= List.length s)%nat.
Proof.
  induction s as [|c s IH]; intros k r; cbn [scan_key]; [intros [= <- <-]; lia|].
  destruct (_ || _)%bool; [intros [= <- <-]; lia|]. destruct (aeqb c "#"); [discriminate|].
  destruct (scan_key s) as [[k' r']|]; [|discriminate]. intros [= <- <-]. specialize (IH k' r' eq_refl). cbn. lia.
Qed.
Lemma scan_line_len line k v : scan_line line = Some (k, v) -> (List.length v < List.length line)%nat.
Proof.
  unfold scan_line. destruct line as [|c0 l0]; [discriminate|]. set (line := c0 :: l0). clearbody line. clear c0 l0.
  pose proof (skip_len line). destruct (scan_key (skip_space line)) as [[key r]|] eqn:E; [|discriminate].
  apply scan_key_len in E. pose proof (skip_len r). destruct (skip_space r) as [|c t]; [discriminate|].
  destruct (aeqb c ":"); [|discriminate]. intros [= <- <-]. pose proof (skip_len t).
  pose proof (length_span (fun c => negb (aeqb c "#")) (skip_space t)). cbn [List.length] in *. lia.
Qed.
Lemma drop_trailing_len s : (List.length (drop_trailing s) <= List.length s)%nat.
Proof. unfold drop_trailing. rewrite rev_length. pose proof (skip_len (rev s)). rewrite rev_length in *. lia. Qed.
Lemma trim_len v : List.length (trim_value v) = List.length v.
Proof.
  unfold trim_value. rewrite !app_length, repeat_length, skipn_length. pose proof (drop_trailing_len (c_str v)). pose proof (c_str_len v). lia.
Qed.
Lemma entry_len l k v : entry l = Some (k, v) -> (List.length v < List.length l)%nat.
Proof.
  unfold entry. destruct (scan_line l) as [[k' v']|] eqn:E; [|discriminate]. destruct (beqb _ _); [discriminate|].
  intros [= <- <-]. rewrite trim_len. eapply scan_line_len. exact E.
Qed.

(** ** The parser on an input that delivers a text *)

Section Reading.
  Variable I : Type.
  Variable getptr : I -> N -> res (option bytes * I).
  Variable release : I -> N -> res I.
  Variable inv : I -> Prop.
  Variable unread : I -> bytes.
  Hypothesis next : forall i len, inv i -> len <= 2^31 -> exists v i1, getptr i len = Ok (v, i1) /\
    match v with
    | None => unread i = [] /\ inv i1 /\ unread i1 = []
    | Some b => exists rest, unread i = b ++ rest /\ (rest <> [] -> len <= llen b /\ b <> []) /\ inv i1 /\ unread i1 = unread i /\
        forall n, n <= llen b -> exists i2, release i1 n = Ok i2 /\ inv i2 /\ unread i2 = drop n (unread i)
    end.

  Lemma read_line_found line rest : no_nl line -> llen line + 4096 <= 2^31 -> forall fuel i k len,
    inv i -> unread i = line ++ bchr 10 :: rest -> k <= llen line -> k <= len -> (len = 0 \/ len = k + 4096) ->
    (N.to_nat (llen line - k) + 1 < fuel)%nat ->
    exists i1, read_line I getptr fuel i k len = Ok (Some line, i1) /\
      exists i2, release i1 (wrap32 (llen line + 1)) = Ok i2 /\ inv i2 /\ unread i2 = rest.
  Proof.
    intros NL Hl. induction fuel as [|f IH]; intros i k len Hi E Hk Hk2 Hlen Hf; [lia|].
    cbn [read_line]. destruct (next i len Hi ltac:(lia)) as (v & i1 & -> & H). cbn [rbind].
    destruct v as [b|]. 2: { destruct H as (H & _). rewrite E in H. destruct line; discriminate. }
    destruct H as (r & E1 & Hr & Hi1 & U1 & Rel).
    assert (Lt : k < llen b).
    { destruct r as [|c r].
      - rewrite app_nil_r in E1. rewrite <- E1, E, llen_app, llen_cons. lia.
      - destruct (Hr ltac:(discriminate)) as [H1 H2]. destruct Hlen as [-> | ->]; [|lia].
        assert (k = 0) by lia. subst k. destruct b; [congruence|]. rewrite llen_cons. lia. }
    destruct (k =? llen b) eqn:Q; [lia|]. rewrite E in E1.
    assert (Cmp : llen b <= llen line \/ exists r', b = line ++ bchr 10 :: r').
    { destruct (N.le_gt_cases (llen b) (llen line)) as [L|L]; [auto|right].
      assert (T : take (llen line) b = line).
      { assert (X : take (llen line) (b ++ r) = line) by (rewrite <- E1, take_app, take_all, N.sub_diag, take_0, app_nil_r by lia; reflexivity).
        rewrite take_app in X. replace (llen line - llen b) with 0 in X by lia. rewrite take_0, app_nil_r in X. exact X. }
      pose proof (take_app_drop (llen line) b) as TD. rewrite T in TD. rewrite <- TD in E1 |- *. rewrite <- app_assoc in E1.
      apply app_inv_head in E1. destruct (drop (llen line) b) as [|c r'] eqn:X.
      - pose proof (llen_drop (llen line) b) as LD. rewrite X in LD. cbn in LD. lia.
      - cbn in E1. injection E1 as <- _. eauto. }
    destruct Cmp as [L|(r' & ->)].
    - assert (Ep : b = take (llen b) line).
      { assert (X : take (llen b) (line ++ bchr 10 :: rest) = b) by (rewrite E1, take_app, take_all, N.sub_diag, take_0, app_nil_r by lia; reflexivity).
        rewrite take_app in X. replace (llen b - llen line) with 0 in X by lia. rewrite take_0, app_nil_r in X. congruence. }
      assert (NB : no_nl b).
      { rewrite Ep. unfold no_nl in *. rewrite <- (take_app_drop (llen b) line), forallb_app in NL. apply andb_true_iff in NL as [NL _]. exact NL. }
      rewrite span_none. 2: { apply forallb_drop. exact NB. }
      assert (W : wrap32 (llen b + 4096) = llen b + 4096) by (unfold wrap32; apply N.mod_small; lia).
      rewrite W. replace (N.max k (llen b)) with (llen b) by lia.
      assert (E' : unread i1 = line ++ bchr 10 :: rest) by congruence.
      apply (IH i1 (llen b) (llen b + 4096)); auto; lia.
    - assert (Dr : drop k (line ++ bchr 10 :: r') = drop k line ++ bchr 10 :: r').
      { rewrite drop_app. replace (k - llen line) with 0 by lia. now rewrite drop_0. }
      rewrite Dr. assert (SP := span_stop (fun c => negb (aeqb c (bchr 10))) (drop k line) (bchr 10) r'
        (forallb_drop _ k line NL) eq_refl). rewrite SP.
      assert (Tk : take k (line ++ bchr 10 :: r') = take k line).
      { rewrite take_app. replace (k - llen line) with 0 by lia. now rewrite take_0, app_nil_r. }
      rewrite Tk, take_app_drop. exists i1. split; [reflexivity|].
      assert (W : wrap32 (llen line + 1) = llen line + 1) by (unfold wrap32; apply N.mod_small; lia). rewrite W.
      destruct (Rel (llen line + 1)) as (i2 & R2 & Hi2 & U2); [rewrite llen_app, llen_cons; lia|].
      exists i2. split; [exact R2|]. split; [exact Hi2|]. rewrite U2, E, drop_app, drop_all by lia.
      replace (llen line + 1 - llen line) with 1 by lia. reflexivity.
  Qed.

  Lemma read_line_end tail : no_nl tail -> llen tail + 4096 <= 2^31 -> forall fuel i k len,
    inv i -> unread i = tail -> k <= llen tail -> k <= len -> (len = 0 \/ len = k + 4096) ->
    (N.to_nat (llen tail - k) + 1 < fuel)%nat ->
    exists i1, read_line I getptr fuel i k len = Ok (None, i1) /\ inv i1 /\ unread i1 = tail.
  Proof.
    intros NL Hl. induction fuel as [|f IH]; intros i k len Hi E Hk Hk2 Hlen Hf; [lia|].
    cbn [read_line]. destruct (next i len Hi ltac:(lia)) as (v & i1 & -> & H). cbn [rbind].
    destruct v as [b|]. 2: { destruct H as (H1 & H2 & H3). exists i1. repeat split; auto. congruence. }
    destruct H as (r & E1 & Hr & Hi1 & U1 & _).
    destruct (k =? llen b) eqn:Q; [exists i1; repeat split; auto; congruence|]. rewrite E in E1.
    assert (Lt : k < llen b).
    { destruct r as [|c r].
      - rewrite app_nil_r in E1. rewrite E1 in Hk. lia.
      - destruct (Hr ltac:(discriminate)) as [H1 H2]. destruct Hlen as [-> | ->]; [|lia].
        assert (k = 0) by lia. subst k. destruct b; [congruence|]. rewrite llen_cons. lia. }
    assert (L : llen b <= llen tail) by (rewrite E1, llen_app; lia).
    assert (NB : no_nl b).
    { unfold no_nl in *. rewrite E1, forallb_app in NL. apply andb_true_iff in NL as [NL _]. exact NL. }
    rewrite span_none. 2: { apply forallb_drop. exact NB. }
    assert (W : wrap32 (llen b + 4096) = llen b + 4096) by (unfold wrap32; apply N.mod_small; lia).
    rewrite W. replace (N.max k (llen b)) with (llen b) by lia.
    assert (E' : unread i1 = tail) by congruence.
    apply (IH i1 (llen b) (llen b + 4096)); auto; lia.
  Qed.

  Definition short (s : bytes) : Prop := llen s + 4096 <= 2^31.

  (** The next entry among the lines. *)
  Fixpoint first_entry (ls : list bytes) : option (bytes * bytes * list bytes) :=
    match ls with
    | [] => None
    | l :: t => match entry l with Some (k, v) => Some (k, v, t) | None => first_entry t end
    end.

  Lemma key_loop_ok tail : no_nl tail -> short tail -> forall ls fuel i, Forall no_nl ls -> Forall short ls ->
    inv i -> unread i = joined ls tail -> (List.length (joined ls tail) + 2 < fuel)%nat ->
    match first_entry ls with
    | Some (k, v, t) => exists i1, key_loop I getptr release fuel i = Ok (Some (k, v), i1) /\ inv i1 /\ unread i1 = joined t tail
    | None => exists i1, key_loop I getptr release fuel i = Ok (None, i1) /\ inv i1 /\ unread i1 = tail
    end.
  Proof.
    intros NT ST. induction ls as [|l ls IH]; intros fuel i FN FS Hi E Hf; (destruct fuel as [|f]; [lia|]); cbn [key_loop first_entry].
    - cbn [joined flat_map app] in E, Hf. destruct (read_line_end tail NT ST (S f) i 0 0 Hi E) as (i1 & -> & Hi1 & U1); try lia.
      { unfold llen. lia. }
      cbn [rbind]. exists i1. auto.
    - inversion FN as [|? ? N1 N2]; inversion FS as [|? ? S1 S2]; subst.
      unfold joined in E, Hf. cbn [flat_map] in E, Hf. rewrite <- !app_assoc in E, Hf. cbn [app nl] in E, Hf.
      fold (joined ls tail) in E, Hf. rewrite app_length in Hf. cbn [List.length] in Hf.
      destruct (read_line_found l (joined ls tail) N1 S1 (S f) i 0 0 Hi E) as (i1 & -> & i2 & R2 & Hi2 & U2); try lia.
      { unfold llen. lia. }
      cbn [rbind]. rewrite R2. cbn [rbind]. specialize (IH f i2 N2 S2 Hi2 U2 ltac:(lia)).
      unfold entry. destruct (scan_line l) as [[k v]|]; [|exact IH]. destruct (beqb (c_str k) version_key); [exact IH|].
      exists i2. auto.
  Qed.

  Lemma guesses_cons errno t ts : guesses errno (t :: ts) =
    (guess_value (guess_scalar (hd false errno) t) :: fst (guesses (tl errno) ts), snd (guesses (tl errno) ts)).
  Proof.
    unfold guesses. cbn [fold_left fst snd app].
    assert (K : forall ts a e, fold_left (fun a t => (fst a ++ [guess_value (guess_scalar (hd false (snd a)) t)], tl (snd a))) ts (a, e) =
      (a ++ fst (fold_left (fun a t => (fst a ++ [guess_value (guess_scalar (hd false (snd a)) t)], tl (snd a))) ts ([], e)),
       snd (fold_left (fun a t => (fst a ++ [guess_value (guess_scalar (hd false (snd a)) t)], tl (snd a))) ts ([], e)))).
    { clear. induction ts as [|t ts IH]; intros a e; cbn [fold_left fst snd app]; [now rewrite app_nil_r|].
      rewrite IH. rewrite (IH [_]). cbn [fst snd]. now rewrite <- app_assoc. }
    rewrite K. reflexivity.
  Qed.

  Lemma list_run ts : forall fuel errno v k0 m acc r b0 i,
    exists e', e' = snd (guesses errno ts) /\
    bh_run I getptr release (List.length ts + 1 + fuel) (Bh BH_LIST v ts (BState (AList acc :: AMap false k0 m :: b0) r false) errno) i =
    bh_run I getptr release fuel (Bh BH_KEY v [] (BState (AMap true k0 (mset k0 (VList (acc ++ fst (guesses errno ts))) m) :: b0) r false) e') i.
  Proof.
    induction ts as [|t ts IH]; intros fuel errno v k0 m acc r b0 i; eexists; (split; [reflexivity|]); cbn [List.length Nat.add bh_run h_b h_st h_list b_acts].
    - cbn [build b_acts finish set_value b_result b_done rbind h_set h_value h_list h_errno]. unfold guesses. cbn [fold_left fst snd]. now rewrite app_nil_r.
    - cbn [build b_acts set_value b_result b_done rbind h_value h_errno].
      destruct (IH fuel (tl errno) v k0 m (acc ++ [guess_value (guess_scalar (hd false errno) t)]) r b0 i) as (e' & -> & R).
      unfold next_errno. cbn [h_errno]. rewrite guesses_cons. cbn [fst snd].
      replace (match errno with [] => false | e :: _ => e end) with (hd false errno) by (destruct errno; reflexivity).
      rewrite R. now rewrite <- app_assoc.
  Qed.

  (** From the state KEY to the end. *)
  Lemma keys_run tail : no_nl tail -> short tail -> forall n ls fuel errno v0 k0 m r i, (List.length ls <= n)%nat ->
    Forall no_nl ls -> Forall short ls -> inv i -> unread i = joined ls tail ->
    (2 * List.length (joined ls tail) + 8 < fuel)%nat ->
    exists d i1, bh_run I getptr release fuel (Bh BH_KEY v0 [] (BState [AMap true k0 m; ABase true r] VNull false) errno) i = Ok (0, d, i1) /\
      inv i1 /\ unread i1 = tail /\ h_b d = BState [] (VMap (fst (entries errno ls m))) true.
  Proof.
    intros NT ST. induction n as [|n IH]; intros ls fuel errno v0 k0 m r i Hn FN FS Hi E Hf.
    - destruct ls; [|cbn in Hn; lia]. do 5 (destruct fuel as [|fuel]; [lia|]).
      cbn [bh_run h_b h_st b_acts].
      pose proof (key_loop_ok tail NT ST [] (S (S (S (S fuel)))) i FN FS Hi E ltac:(lia)) as K. cbn [first_entry] in K.
      destruct K as (i1 & -> & Hi1 & U1). cbn [rbind h_set h_b h_st b_acts build finish set_value b_result b_done].
      eexists _, i1. repeat split; auto.
    - destruct fuel as [|f]; [lia|]. cbn [bh_run h_b h_st b_acts].
      pose proof (key_loop_ok tail NT ST ls f i FN FS Hi E ltac:(lia)) as K.
      destruct (first_entry ls) as [[[k v] t]|] eqn:Fe.
      + destruct K as (i1 & -> & Hi1 & U1). cbn [rbind build b_acts set_value as_string b_result b_done h_b h_list h_errno].
        assert (T : exists l0 : bytes, (List.length t < List.length ls)%nat /\ Forall no_nl t /\ Forall short t /\
                      (List.length (joined t tail) + List.length l0 + 1 <= List.length (joined ls tail))%nat /\ (List.length v < List.length l0)%nat /\
                      entries errno ls m = (let '(x, e) := entry_value errno v in entries e t (mset k x m))).
        { clear - Fe FN FS. revert FN FS. induction ls as [|l ls IHl]; intros FN FS; cbn [first_entry] in Fe; [discriminate|].
          inversion FN as [|? ? N1 N2]; inversion FS as [|? ? S1 S2]; subst.
          assert (LJ : List.length (joined (l :: ls) tail) = (List.length l + 1 + List.length (joined ls tail))%nat).
          { unfold joined. cbn [flat_map]. rewrite !app_length. cbn. lia. }
          cbn [entries]. destruct (entry l) as [[k' v']|] eqn:El.
          - injection Fe as -> -> ->. exists l. pose proof (entry_len _ _ _ El). repeat split; auto; try lia.
          - destruct (IHl Fe N2 S2) as (l0 & H1 & H2 & H3 & H4 & H5 & H6). exists l0. repeat split; auto; try lia. cbn; lia. }
        destruct T as (l0 & T1 & T2 & T3 & T4 & T5 & T6). destruct f as [|f]; [lia|].
        cbn [bh_run h_b h_st b_acts h_value h_list h_errno]. unfold entry_value in T6. set (cs := c_str v) in *.
        assert (Lts : (List.length (tokens cs) <= List.length v)%nat).
        { pose proof (tokens_len (S (List.length cs)) cs). pose proof (c_str_len v). fold cs in H0. unfold tokens. lia. }
        unfold next_errno. cbn [h_errno]. replace (match errno with [] => false | e :: _ => e end) with (hd false errno) by (destruct errno; reflexivity).
        destruct ((List.length (tokens cs) <=? 1)%nat && negb (bar_at_end v))%bool.
        * cbn [build b_acts set_value b_result b_done rbind].
          destruct (IH t f (tl errno) v k (mset k (guess_value (guess_scalar (hd false errno) (strtok_rest cs))) m) r i1 ltac:(lia) T2 T3 Hi1 U1 ltac:(lia)) as (d & i2 & -> & H1 & H2 & H3).
          exists d, i2. rewrite T6. auto.
        * cbn [build b_acts rbind b_result b_done]. cbn [app].
          replace f with (List.length (tokens cs) + 1 + (f - (List.length (tokens cs) + 1)))%nat by lia.
          destruct (list_run (tokens cs) (f - (List.length (tokens cs) + 1)) errno [] k m [] VNull [ABase true r] i1) as (e' & -> & ->). cbn [app].
          destruct (guesses errno (tokens cs)) as [gl ge]. cbn [fst snd] in *.
          destruct (IH t (f - (List.length (tokens cs) + 1))%nat ge [] k (mset k (VList gl) m) r i1 ltac:(lia) T2 T3 Hi1 U1 ltac:(lia)) as (d & i2 & -> & H1 & H2 & H3).
          exists d, i2. rewrite T6. auto.
      + destruct K as (i1 & -> & Hi1 & U1). cbn [rbind h_set h_b h_value h_list h_errno].
        do 4 (destruct f as [|f]; [lia|]).
        cbn [bh_run h_set h_b h_st b_acts build finish set_value b_result b_done rbind h_value h_list h_errno].
        assert (N : entries errno ls m = (m, errno)).
        { clear - Fe. revert errno m. induction ls as [|l ls IHl]; intros; [reflexivity|]. cbn [first_entry entries] in *.
          destruct (entry l) as [[? ?]|]; [discriminate|]. apply IHl, Fe. }
        rewrite N. cbn [fst]. eexists _, i1. repeat split; auto.
  Qed.

  (** The whole parse. *)
  Lemma bundle_read ls tail i fuel errno : no_nl tail -> short tail -> Forall no_nl ls -> Forall short ls ->
    inv i -> unread i = joined ls tail -> joined ls tail <> [] -> (2 * List.length (joined ls tail) + 20 < fuel)%nat ->
    exists d i1, bh_parse I getptr release fuel errno i = Ok (VMap (fst (entries errno ls [])), d, i1) /\ inv i1 /\ unread i1 = tail.
  Proof.
    intros NT ST FN FS Hi E Ne Hf. unfold bh_parse. destruct fuel as [|f]; [lia|]. cbn [bh_loop].
    assert (R : exists d i1, bh_run I getptr release (S f) (bh_new errno) i = Ok (0, d, i1) /\ inv i1 /\ unread i1 = tail /\
                h_b d = BState [] (VMap (fst (entries errno ls []))) true).
    { destruct (next i 0 Hi ltac:(lia)) as (v & i1 & G & H). destruct f as [|f]; [lia|].
      cbn [bh_run bh_new h_b h_st b_acts b_new]. rewrite G. cbn [rbind].
      destruct v as [b|]; [|destruct H as (H & _); congruence]. destruct H as (rest & E1 & Hr & Hi1 & U1 & _).
      assert (Nb : b <> []).
      { intros ->. destruct rest; [cbn in E1; congruence|]. destruct (Hr ltac:(discriminate)); congruence. }
      destruct b as [|c b]; [congruence|].
      cbn [build b_acts rbind h_set h_b h_st h_value h_list h_errno b_result b_done bh_run].
      change (build b_new BBeginDoc) with (Ok (BState [ABase true VNull] VNull false)).
      unfold rbind at 1. cbn [b_acts]. unfold h_set. cbn [build b_acts rbind h_b h_st h_value h_list h_errno b_result b_done bh_new b_new].
      destruct (keys_run tail NT ST (List.length ls) ls f errno [] [] [] VNull i1 ltac:(lia) FN FS Hi1 ltac:(congruence) ltac:(lia)) as (d & i2 & -> & H1 & H2 & H3).
      exists d, i2. auto. }
    destruct R as (d & i1 & -> & Hi1 & U1 & B). cbn [rbind]. rewrite B. cbn [b_done negb andb b_result].
    change (0 =? 0) with true. exists d, i1. auto.
  Qed.
End Reading.

(** ** Memory and stream inputs *)

Lemma pinput_next_len i len : ready i -> len <= 2^31 -> exists v i1, in_view_len i len = Ok (v, i1) /\
    match v with
    | None => unread i = [] /\ ready i1 /\ unread i1 = []
    | Some b => exists rest, unread i = b ++ rest /\ (rest <> [] -> len <= llen b /\ b <> []) /\ ready i1 /\ unread i1 = unread i /\
        forall n, n <= llen b -> exists i2, in_release i1 n = Ok i2 /\ ready i2 /\ unread i2 = drop n (unread i)
    end.
Proof.
  intros [U M] Hl. unfold in_view_len. destruct (unread i) as [|c0 t0] eqn:EU.
  - assert (G : exists i1 r, in_getptr i len = Ok (r, i1) /\ fst r = None /\ ready i1 /\ unread i1 = []).
    { destruct i as [m|s]; cbn [usable unread in_getptr] in *.
      - unfold mi_getptr. destruct (llen (mi_data m) <? mi_off m) eqn:Q; [lia|]. cbn [rbind].
        pose proof (llen_drop (mi_off m) (mi_data m)) as L. rewrite EU in L. unfold llen at 1 in L. cbn in L.
        eexists _, _. split; [reflexivity|]. cbn [fst].
        destruct (0 <? llen (mi_data m) - mi_off m) eqn:Q2; [lia|]. split; [reflexivity|]. split; [split; [exact U|exact M]|exact EU].
      - destruct U as (W & Sm & FR & FE).
        destruct (getptr_spec s len 3 W Sm Hl ltac:(lia))
          as (r & s1 & v & E1 & V1 & W1 & S1 & P1 & F1 & N1 & VN & VS & D1 & X1).
        rewrite E1. cbn [rbind]. exists (InStream s1), r. split; [reflexivity|].
        rewrite EU in P1. destruct v as [b|].
        + destruct (VS b eq_refl) as [Eb NB]. exfalso. unfold pending in P1. apply app_eq_nil in P1 as [P1 _]. congruence.
        + split; [|split; [split; [cbn [usable]; split; [exact W1|split; [exact S1|split; [auto|auto]]]|exact I]|exact P1]].
          unfold si_view in V1. destruct (fst r); [|reflexivity]. destruct (_ <? _); discriminate. }
    destruct G as (i1 & r & -> & E1 & R1 & U1). cbn [rbind]. rewrite E1. exists None, i1. auto.
  - destruct (in_getptr_spec i len U Hl ltac:(congruence)) as (i1 & E1 & U1 & R1 & Pos & Enough & Le). rewrite EU in R1, Enough.
    pose proof E1 as E1'. rewrite E1. cbn [rbind fst snd].
    destruct i1 as [m1|s1]; cbn [in_ptr in_len usable unread] in *.
    + rewrite llen_drop in *. destruct (llen (mi_data m1) <? mi_off m1 + (llen (mi_data m1) - mi_off m1)) eqn:Q; [lia|].
      rewrite (take_all (llen (mi_data m1) - mi_off m1) (drop (mi_off m1) (mi_data m1))) by (rewrite llen_drop; lia).
      assert (Em : i = InMem m1).
      { destruct i as [m|s]; cbn [in_getptr] in E1'.
        - destruct (mi_getptr m); cbn [rbind] in E1'; try discriminate. injection E1' as _ <-. reflexivity.
        - destruct (si_getptr 3 s len) as [[? ?]| | | |]; cbn [rbind] in E1'; discriminate. }
      subst i. eexists _, _. split; [reflexivity|].
      exists []. split; [rewrite app_nil_r; symmetry; exact R1|]. split; [congruence|]. split; [split; assumption|]. split; [exact R1|].
      intros n Hn. cbn [in_release mi_release].
      eexists. split; [reflexivity|].
      assert (Ln : n <= llen (mi_data m1) - mi_off m1) by (rewrite llen_drop in Hn; exact Hn).
      assert (Wr : wrap32 (mi_off m1 + n) = mi_off m1 + n) by (unfold wrap32; apply N.mod_small; lia).
      unfold ready, mi_release. cbn [usable unread mi_off mi_data]. rewrite Wr.
      repeat split; auto; try lia. rewrite <- drop_drop, R1. reflexivity.
    + destruct U1 as (W1 & Sm1 & FR1 & FE1). pose proof W1 as (Wa & _).
      destruct (llen (si_buf s1) <? si_off s1 + si_num s1) eqn:Q; [lia|].
      fold (view s1). eexists _, _. split; [reflexivity|].
      exists (src_data (si_src s1)). split; [rewrite <- R1; reflexivity|].
      split. { intros Nr. rewrite view_len by exact W1. split.
        - destruct Enough as [?|Full]; [assumption|]. exfalso. apply Nr. apply llen_0.
          rewrite <- R1 in Full. unfold pending in Full. rewrite llen_app, view_len in Full by exact W1. lia.
        - intros Ev. pose proof (view_len s1 W1) as VL. rewrite Ev in VL. cbn in VL. lia. }
      split. { split; [cbn [usable]; auto|exact I]. }
      split; [exact R1|]. intros n Hn.
      rewrite view_len in Hn by exact W1.
      destruct (release_spec s1 n W1 Hn) as (s2 & E2 & W2 & B2 & P2 & N2 & Ee2 & Sr2).
      cbn [in_release]. rewrite E2. cbn [rbind]. eexists. split; [reflexivity|].
      unfold ready. cbn [usable unread]. rewrite <- R1, P2. unfold small in *. rewrite B2, Ee2, Sr2. auto 10.
Qed.
