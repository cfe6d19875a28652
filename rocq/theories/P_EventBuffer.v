(** C20: recorded events replay identically, with exact counts. *)
From Verif Require Import Base Float Value Emit Blob EventBuffer EventBufferProofs.
Open Scope N_scope.

(** A session: bare trees, and documents holding any number of trees. *)
Inductive item := IBare (t : tree) | IDoc (ts : list tree).
Definition item_calls (i : item) : list eev :=
  match i with IBare t => calls t | IDoc ts => EvBeginDoc :: flat_map calls ts ++ [EvEndDoc] end.
Definition item_ok (i : item) : Prop :=
  match i with IBare t => tree_ok t | IDoc ts => Forall tree_ok ts end.

(** What a faithful recording plays back: the same calls, each map and list announcing the
    number of its entries, each blob as a single buffer of the same bytes. *)
Fixpoint exact (t : tree) : tree :=
  match t with
  | TScalar e => TScalar (one_buffer e)
  | TList _ l => TList (Z.of_nat (List.length l)) (List.map exact l)
  | TMap _ m => TMap (Z.of_nat (List.length m)) (List.map (fun kv => (exact (fst kv), exact (snd kv))) m)
  end.
Definition item_exact (i : item) : item :=
  match i with IBare t => IBare (exact t) | IDoc ts => IDoc (List.map exact ts) end.

(** No list or map of the tree has 2^31 entries or more. *)
Fixpoint narrow (t : tree) : Prop :=
  match t with
  | TScalar _ => True
  | TList _ l => N.of_nat (List.length l) < 2^31 /\
      (fix go l := match l with [] => True | x :: t => narrow x /\ go t end) l
  | TMap _ m => N.of_nat (List.length m) < 2^31 /\
      (fix go m := match m with [] => True | kv :: t => (narrow (fst kv) /\ narrow (snd kv)) /\ go t end) m
  end.
Definition item_narrow (i : item) : Prop :=
  match i with IBare t => narrow t | IDoc ts => Forall narrow ts end.

Lemma counted_exact t : narrow t -> counted t = exact t.
Proof.
  induction t as [e|n l IH|n m IH] using tree_ind'; cbn [counted exact]; intros N.
  - reflexivity.
  - destruct N as [N1 N2]. rewrite int_of_u64_small by exact N1. rewrite nat_N_Z. f_equal.
    clear N1. induction IH as [|x l Hx Hl IH2]; [reflexivity|]. destruct N2 as [N2 N3]. cbn. f_equal; auto.
  - destruct N as [N1 N2]. rewrite int_of_u64_small by exact N1. rewrite nat_N_Z. f_equal.
    clear N1. induction IH as [|x l Hx Hl IH2]; [reflexivity|]. destruct N2 as [[N2 N2'] N3]. cbn [List.map]. destruct Hx. f_equal; [f_equal; auto|auto].
Qed.

(** Recording several trees at top level. *)
Lemma records_forest ts : Forall tree_ok ts -> forall b ys, good b -> eb_parent b = None -> ev_fires (eb_events b) = Ok ys ->
  exists b', eb_emits b (flat_map calls ts) = Ok b' /\ good b' /\ eb_parent b' = None /\ eb_level b' = eb_level b /\
    eb_gone b' = eb_gone b /\ ev_fires (eb_events b') = Ok (ys ++ flat_map calls (List.map counted ts)).
Proof.
  induction 1 as [|t ts Ht Hts IH]; intros b ys G P F.
  - exists b. cbn [flat_map List.map eb_emits]. rewrite app_nil_r. repeat split; auto.
  - destruct (records_all t Ht b G) as [blk [E1 [G1 [P1 F1]]]].
    assert (U : upd b = eb_events b) by (unfold upd; rewrite P; reflexivity). rewrite U in *.
    edestruct (IH _ (ys ++ calls (counted t)) G1) as [b' [E2 [G2 [P2 [L2 [D2 F2]]]]]].
    + rewrite P1. exact P.
    + cbn [eb_events]. rewrite fires_app, F, F1. reflexivity.
    + exists b'. cbn [flat_map List.map]. rewrite emits_app, E1. cbn [rbind]. rewrite E2, F2, app_assoc. repeat split; auto.
Qed.

Lemma records_item i : item_ok i -> forall b ys, good b -> eb_parent b = None -> ev_fires (eb_events b) = Ok ys ->
  exists b', eb_emits b (item_calls i) = Ok b' /\ good b' /\ eb_parent b' = None /\ eb_level b' = eb_level b /\
    eb_gone b' = eb_gone b /\
    ev_fires (eb_events b') = Ok (ys ++ item_calls (match i with IBare t => IBare (counted t) | IDoc ts => IDoc (List.map counted ts) end)).
Proof.
  intros OK b ys G P F. destruct i as [t|ts].
  - destruct (records_forest [t] (Forall_cons t OK (Forall_nil tree_ok)) b ys G P F) as [b' H].
    cbn [flat_map List.map] in H. rewrite !app_nil_r in H. exists b'. exact H.
  - cbn [item_ok item_calls] in *.
    assert (G1 : good (eb_push b KBeginDoc None 1)) by (apply good_push; [exact G|exact I]).
    destruct (records_forest ts OK (eb_push b KBeginDoc None 1) (ys ++ [EvBeginDoc]) G1) as [b' [E2 [G2 [P2 [L2 [D2 F2]]]]]].
    + unfold eb_push. rewrite eb_parent_app. reflexivity.
    + unfold eb_push. cbn [eb_events]. rewrite fires_app, F. reflexivity.
    + exists (eb_push b' KEndDoc None (-1)). cbn [eb_emits eb_emit rbind]. rewrite P. rewrite emits_app, E2. cbn [rbind eb_emits eb_emit].
      unfold grand_parent. rewrite P2. cbn [rbind]. split; [reflexivity|]. split; [apply good_push; [exact G2|exact I]|].
      split; [unfold eb_push; rewrite eb_parent_app; reflexivity|]. unfold eb_push in L2, D2 |- *. cbn [eb_level eb_gone eb_events] in *.
      split; [lia|]. split; [exact D2|]. rewrite fires_app, F2. cbn [rbind ev_fires ev_fire e_kind]. rewrite <- !app_assoc. reflexivity.
Qed.

Lemma records_items is : Forall item_ok is -> forall b ys, good b -> eb_parent b = None -> ev_fires (eb_events b) = Ok ys ->
  exists b', eb_emits b (flat_map item_calls is) = Ok b' /\ good b' /\ eb_parent b' = None /\ eb_level b' = eb_level b /\
    eb_gone b' = eb_gone b /\
    ev_fires (eb_events b') = Ok (ys ++ flat_map item_calls (List.map (fun i => match i with IBare t => IBare (counted t) | IDoc ts => IDoc (List.map counted ts) end) is)).
Proof.
  induction 1 as [|t ts Ht Hts IH]; intros b ys G P F.
  - exists b. cbn [flat_map List.map eb_emits]. rewrite app_nil_r. repeat split; auto.
  - destruct (records_item t Ht b ys G P F) as [b1 [E1 [G1 [P1 [L1 [D1 F1]]]]]].
    edestruct (IH b1 _ G1 P1 F1) as [b' [E2 [G2 [P2 [L2 [D2 F2]]]]]].
    exists b'. cbn [flat_map List.map]. rewrite emits_app, E1. cbn [rbind]. rewrite E2, F2, app_assoc.
    repeat split; auto; congruence.
Qed.

(** C20.  Recording any session of well-nested calls into a buffer (fresh, or emptied by an
    earlier playback) and playing it back makes the same calls in the same order, whatever
    lengths were announced, every map and list begin carrying the number of its entries;
    afterwards the buffer is empty and back at its level.  _partial: lists and maps of
    fewer than 2^31 entries, blobs of at least one buffer and fewer than 2^32 bytes (see
    the refutations below); a blob comes back as one buffer. *)
Theorem C20_replay_partial : forall b0 items,
  eb_events b0 = [] -> Forall item_ok items -> Forall item_narrow items ->
  exists b b', eb_emits b0 (flat_map item_calls items) = Ok b /\ eb_level b = eb_level b0 /\
    eb_playback b = Ok (flat_map item_calls (List.map item_exact items), b') /\
    eb_events b' = [] /\ eb_level b' = eb_level b0.
Proof.
  intros b0 items E OK N.
  assert (B : b0 = EBuf (eb_level b0) (eb_gone b0) []) by (destruct b0; cbn in E; subst; reflexivity).
  destruct (records_items items OK b0 []) as [b [E2 [G2 [P2 [L2 [D2 F2]]]]]].
  - rewrite B. apply good_empty.
  - rewrite B. reflexivity.
  - rewrite E. reflexivity.
  - exists b, (EBuf (eb_level b) (eb_gone b + List.length (eb_events b)) []). split; [exact E2|]. split; [exact L2|]. unfold eb_playback. rewrite F2. cbn [rbind]. split; [|split; [reflexivity|exact L2]].
    do 3 f_equal. clear -N. induction N as [|i is Hi His IH]; [reflexivity|]. cbn [flat_map List.map app]. f_equal; [|exact IH].
    destruct i as [t|ts]; cbn [item_exact].
    + rewrite counted_exact by exact Hi. reflexivity.
    + do 2 f_equal. cbn in Hi. clear -Hi. induction Hi; cbn; f_equal; auto. apply counted_exact. assumption.
Qed.
Print Assumptions C20_replay_partial.

(** The same call, except for an announced length and the division of a blob in buffers. *)
Definition same_call (a b : eev) : Prop :=
  match a, b with
  | EvBeginMap _, EvBeginMap _ | EvBeginList _, EvBeginList _ => True
  | EvBlob x, EvBlob y => List.concat x = List.concat y
  | _, _ => a = b
  end.

(** A string of a call is a C string; a blob can be copied. *)
Definition call_ok (e : eev) : Prop :=
  match e with
  | EvStr s => ~ In (bchr 0) s
  | EvBlob b => b <> [] /\ N.of_nat (List.length (List.concat b)) < 2^32
  | _ => True
  end.

Lemma fires_repl i es ys : ev_fires es = Ok ys -> exists zs, ev_fires (repl i ev_update es) = Ok zs /\ Forall2 same_call ys zs.
Proof.
  assert (SC : forall e, same_call e e) by (intros []; cbn; auto).
  assert (S : forall ys, Forall2 same_call ys ys) by (intros zs; induction zs; constructor; auto).
  revert i ys. induction es as [|e es IH]; intros i ys H.
  - exists ys. unfold repl. destruct i; cbn; auto.
  - cbn [ev_fires] in H. destruct (ev_fire e) as [x| | | |] eqn:E1; cbn [rbind] in H; try discriminate.
    destruct (ev_fires es) as [xs| | | |] eqn:E2; cbn [rbind] in H; try discriminate. injection H as <-.
    destruct i as [|i].
    + unfold repl. cbn [nth_error firstn skipn app ev_fires].
      assert (K : exists x', ev_fire (ev_update e) = Ok x' /\ same_call x x').
      { unfold ev_fire in *. rewrite ev_update_kind. destruct (e_kind e); try (exists x; split; [exact E1|apply SC]);
          injection E1 as <-; eexists; (split; [reflexivity|exact I]). }
      destruct K as [x' [K1 K2]]. rewrite K1. cbn [rbind]. rewrite E2. cbn [rbind]. eexists. split; [reflexivity|]. constructor; auto.
    + destruct (IH i _ eq_refl) as [zs [Z1 Z2]]. exists (x :: zs). split; [|constructor; auto].
      unfold repl in *. cbn [nth_error]. change (skipn (Datatypes.S (Datatypes.S i)) (e :: es)) with (skipn (Datatypes.S i) es).
      destruct (nth_error es i); cbn [firstn app ev_fires]; rewrite E1; cbn [rbind].
      * rewrite Z1. reflexivity.
      * rewrite Z1. reflexivity.
Qed.

Lemma same_call_trans a b c : same_call a b -> same_call b c -> same_call a c.
Proof. destruct a, b; cbn; try discriminate; intros H; try (injection H as ->); destruct c; cbn; try discriminate; try congruence; auto. Qed.

(** C20, without nesting: any sequence of calls at all, well nested or not, is recorded
    and played back call by call (the counts then mean nothing). *)
Theorem C20_any_sequence : forall es, Forall call_ok es ->
  exists b xs b', eb_emits eb_new es = Ok b /\ eb_playback b = Ok (xs, b') /\ Forall2 same_call es xs.
Proof.
  intros es OK.
  assert (K : forall es, Forall call_ok es -> forall b ys, good b -> ev_fires (eb_events b) = Ok ys ->
    exists b' zs ts, eb_emits b es = Ok b' /\ ev_fires (eb_events b') = Ok (zs ++ ts) /\ Forall2 same_call ys zs /\ Forall2 same_call es ts).
  { clear. assert (SC : forall e, same_call e e) by (intros []; cbn; auto).
    assert (S : forall ys, Forall2 same_call ys ys) by (intros zs; induction zs; constructor; auto).
    induction 1 as [|e es He Hes IH]; intros b ys G F.
    - exists b, ys, []. rewrite app_nil_r. cbn. auto.
    - destruct (eb_emit_good b e G) as [b1 [E1 G1]].
      assert (Q : exists zs x, ev_fires (eb_events b1) = Ok (zs ++ [x]) /\ Forall2 same_call ys zs /\ same_call e x).
      { assert (U : exists zs, ev_fires (upd b) = Ok zs /\ Forall2 same_call ys zs).
        { unfold upd. destruct (eb_parent b); [apply fires_repl, F|]. exists ys. auto. }
        destruct U as [us [U1 U2]].
        assert (SCA : forall k d x, eb_emit b e = (do (p, b1) <- parent_update b; Ok (eb_push b1 k p d)) ->
            (forall p, ev_fire (Event k p 0 true) = Ok x) -> same_call e x ->
            exists zs x, ev_fires (eb_events b1) = Ok (zs ++ [x]) /\ Forall2 same_call ys zs /\ same_call e x).
        { intros k d x EE FF SS. rewrite EE, parent_update_good in E1 by exact G. cbn [rbind] in E1. injection E1 as <-.
          exists us, x. unfold eb_push. cbn [eb_events]. rewrite fires_app, U1. cbn [ev_fires rbind]. rewrite FF. auto. }
        assert (CLO : forall k d x, eb_emit b e = (do p <- grand_parent b; Ok (eb_push b k p d)) ->
            (forall p, ev_fire (Event k p 0 true) = Ok x) -> same_call e x ->
            exists zs x, ev_fires (eb_events b1) = Ok (zs ++ [x]) /\ Forall2 same_call ys zs /\ same_call e x).
        { intros k d x EE FF SS. rewrite EE in E1. destruct (grand_parent_good b G) as [p [Q1 _]]. rewrite Q1 in E1. cbn [rbind] in E1.
          injection E1 as <-. exists ys, x. unfold eb_push. cbn [eb_events]. rewrite fires_app, F. cbn [ev_fires rbind]. rewrite FF. auto. }
        destruct e.
        - cbn in E1. injection E1 as <-. exists ys, EvBeginDoc. unfold eb_push. cbn [eb_events]. rewrite fires_app, F. cbn. auto.
        - apply (CLO KEndDoc (-1)%Z EvEndDoc); reflexivity.
        - apply (SCA KBeginMap 1%Z (EvBeginMap 0)); reflexivity.
        - apply (CLO KEndMap (-1)%Z EvEndMap); reflexivity.
        - apply (SCA KBeginList 1%Z (EvBeginList 0)); reflexivity.
        - apply (CLO KEndList (-1)%Z EvEndList); reflexivity.
        - apply (SCA KNull 0%Z EvNull); reflexivity.
        - apply (SCA (KBool true) 0%Z EvTrue); reflexivity.
        - apply (SCA (KBool false) 0%Z EvFalse); reflexivity.
        - cbn in He. apply (SCA (KStr (c_str s)) 0%Z (EvStr s)); try reflexivity. intros p. unfold ev_fire. cbn [e_kind].
          rewrite !c_str_id; auto. rewrite c_str_id; auto.
        - apply (SCA (KInt z) 0%Z (EvInt z)); reflexivity.
        - apply (SCA (KUns n) 0%Z (EvUns n)); reflexivity.
        - apply (SCA (KFlt d) 0%Z (EvFlt d)); reflexivity.
        - destruct He as [H1 H2]. apply (SCA (KBlob b0) 0%Z (EvBlob [List.concat b0])); try reflexivity.
          + intros p. unfold ev_fire. cbn [e_kind]. rewrite blob_copy_ok; auto.
          + cbn. rewrite app_nil_r. reflexivity. }
      destruct Q as [zs [x [Q1 [Q2 Q3]]]].
      destruct (IH b1 _ G1 Q1) as [b' [zs' [ts [R1 [R2 [R3 R4]]]]]].
      apply Forall2_app_inv_l in R3 as [z1 [z2 [R5 [R6 ->]]]]. inversion R6 as [|? x' ? ? R7 R8]; subst. inversion R8; subst.
      exists b', z1, (x' :: ts). cbn [eb_emits]. rewrite E1. cbn [rbind]. split; [exact R1|]. split; [rewrite R2, <- app_assoc; reflexivity|].
      split.
      + clear -Q2 R5. revert z1 R5. induction Q2; intros z1 R5; inversion R5; subst; constructor; auto. eapply same_call_trans; eauto.
      + constructor; [eapply same_call_trans; eauto|exact R4]. }
  destruct (K es OK eb_new []) as [b' [zs [ts [R1 [R2 [R3 R4]]]]]].
  - apply good_empty.
  - reflexivity.
  - inversion R3; subst. exists b', ts. eexists. split; [exact R1|]. unfold eb_playback. rewrite R2. cbn [rbind app]. split; [reflexivity|exact R4].
Qed.
Print Assumptions C20_any_sequence.

(** C20 is false for a list of 2^31 entries: played back, it announces -2^31 entries,
    because the 64-bit count is passed as an int. *)
Theorem C20_count_refuted : exists l b,
  Forall (eq (TScalar EvNull)) l /\ N.of_nat (List.length l) = 2^31 /\
  eb_emits eb_new (calls (TList (-1) l)) = Ok b /\
  exists rest b', eb_playback b = Ok (EvBeginList (- 2^31) :: rest, b').
Proof.
  assert (K : forall n, N.of_nat n = 2^31 -> exists l, Forall (eq (TScalar EvNull)) l /\ N.of_nat (List.length l) = 2^31).
  { intros n Hn. exists (repeat (TScalar EvNull) n). rewrite repeat_length. split; [|exact Hn].
    clear Hn. induction n; cbn [repeat]; constructor; auto. }
  destruct (K _ (N2Nat.id (2^31))) as [l [AL LE]]. clear K.
  assert (OK : tree_ok (TList (-1) l)).
  { apply tree_ok_list. split; [rewrite LE; reflexivity|]. eapply Forall_impl; [|exact AL]. intros t <-. exact I. }
  destruct (records_all _ OK eb_new (good_empty _ _)) as [blk [E [G [P F]]]].
  exists l. eexists. split; [exact AL|]. split; [exact LE|]. split; [exact E|]. unfold eb_playback. cbn [eb_events].
  change (upd eb_new) with (@nil event). cbn [app]. rewrite F. cbn [counted calls rbind]. rewrite LE.
  change (int_of_u64 (2^31)) with (- 2^31)%Z. eexists. eexists. reflexivity.
Qed.
Print Assumptions C20_count_refuted.

(** C20 is false for a blob without buffers: playing it back reads the first buffer. *)
Theorem C20_empty_blob_refuted : exists b, eb_emits eb_new [EvBlob []] = Ok b /\ eb_playback b = UB.
Proof. exists (EBuf 0 0 [Event (KBlob []) None 0 true]). split; reflexivity. Qed.
Print Assumptions C20_empty_blob_refuted.

(** A session meeting the hypotheses: a document {"a":[1,[],null],"b":blob}, all lengths
    announced wrongly, followed by a bare list. *)
Definition demo : list item :=
  [IDoc [TMap (-1) [(TScalar (EvStr (s2b "a")), TList 7 [TScalar (EvInt 1); TList (-1) []; TScalar EvNull]);
                    (TScalar (EvStr (s2b "b")), TScalar (EvBlob [s2b "xy"; []; s2b "z"]))]];
   IBare (TList (-1) [TScalar EvTrue])].
Example demo_ok : Forall item_ok demo /\ Forall item_narrow demo.
Proof.
  unfold demo. split; repeat match goal with
    | |- Forall _ (_ :: _) => constructor | |- Forall _ [] => constructor
    | |- _ /\ _ => split | |- _ => progress cbn [item_ok item_narrow tree_ok narrow scalar_ok fst snd List.length]
    | |- True => exact I | |- _ < _ => reflexivity | |- ~ In _ _ => intros [E|[]]; discriminate E | |- _ <> _ => discriminate end.
Qed.
Example demo_replay : exists b b', eb_emits eb_new (flat_map item_calls demo) = Ok b /\ eb_playback b =
  Ok ([EvBeginDoc; EvBeginMap 2; EvStr (s2b "a"); EvBeginList 3; EvInt 1; EvBeginList 0; EvEndList; EvNull; EvEndList;
       EvStr (s2b "b"); EvBlob [s2b "xyz"]; EvEndMap; EvEndDoc; EvBeginList 1; EvTrue; EvEndList], b').
Proof. eexists. eexists. split; [cbn; reflexivity|]. cbn. reflexivity. Qed.
Example any_sequence_case : Forall call_ok [EvEndList; EvBeginMap 3; EvEndDoc; EvStr (s2b "a")].
Proof. repeat constructor. intros [E|[]]; discriminate E. Qed.
