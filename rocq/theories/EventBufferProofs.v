(** Lemmas about recording and playback. *)
From Verif Require Import Base Float Value Emit Blob EventBuffer.
Open Scope N_scope.

(** Replacing the element at a position. *)
Definition repl {A} (i : nat) (f : A -> A) (l : list A) : list A :=
  match nth_error l i with
  | Some x => firstn i l ++ f x :: skipn (S i) l
  | None => l
  end.

Lemma repl_length {A} i (f : A -> A) l : List.length (repl i f l) = List.length l.
Proof.
  unfold repl. destruct (nth_error l i) eqn:E; [|reflexivity].
  assert (i < List.length l)%nat by (apply nth_error_Some; congruence).
  rewrite app_length. cbn [List.length]. rewrite firstn_length, skipn_length. lia.
Qed.

Lemma repl_app_l {A} i (f : A -> A) l l2 : (i < List.length l)%nat -> repl i f (l ++ l2) = repl i f l ++ l2.
Proof.
  intros H. unfold repl. rewrite nth_error_app1 by exact H. destruct (nth_error l i) eqn:E.
  - rewrite firstn_app, skipn_app. replace (i - List.length l)%nat with 0%nat by lia.
    replace (S i - List.length l)%nat with 0%nat by lia. rewrite firstn_O, skipn_O, app_nil_r, <- app_assoc. reflexivity.
  - apply nth_error_None in E. lia.
Qed.

Lemma repl_mid {A} (f : A -> A) l x l2 : repl (List.length l) f (l ++ x :: l2) = l ++ f x :: l2.
Proof.
  unfold repl. rewrite nth_error_app2 by lia. rewrite Nat.sub_diag. cbn [nth_error].
  rewrite firstn_app, Nat.sub_diag, firstn_O, app_nil_r, firstn_all.
  rewrite skipn_app, skipn_all2 by lia. replace (S (List.length l) - List.length l)%nat with 1%nat by lia. reflexivity.
Qed.

Lemma repl_nth {A} i (f : A -> A) l j : nth_error (repl i f l) j =
  if Nat.eqb i j then option_map f (nth_error l j) else nth_error l j.
Proof.
  revert i j. induction l as [|x l IH]; intros i j.
  - unfold repl. destruct i; cbn; destruct j; cbn; try reflexivity. destruct (Nat.eqb i j); reflexivity.
  - destruct i as [|i].
    + unfold repl. cbn. destruct j; cbn; reflexivity.
    + specialize (IH i). destruct j as [|j]; cbn [Nat.eqb].
      * unfold repl. cbn. destruct (nth_error l i); reflexivity.
      * specialize (IH j). unfold repl in *. cbn [nth_error]. destruct (nth_error l i); exact IH.
Qed.

(** The pointers of a buffer are good: each points to an earlier event that opens a map or list. *)
Definition ptr_ok (b : ebuf) (i : nat) (p : option nat) : Prop :=
  match p with
  | None => True
  | Some q => (eb_gone b <= q < eb_gone b + i)%nat /\
              exists e, nth_error (eb_events b) (q - eb_gone b) = Some e /\ is_begin (e_kind e) = true
  end.

Definition good (b : ebuf) : Prop :=
  forall i e, nth_error (eb_events b) i = Some e -> ptr_ok b i (e_parent e).

Lemma good_empty l g : good (EBuf l g []).
Proof. intros i e H. destruct i; discriminate. Qed.

Lemma eb_parent_app l g es e : eb_parent (EBuf l g (es ++ [e])) =
  if is_begin (e_kind e) then Some (g + List.length es)%nat else e_parent e.
Proof.
  unfold eb_parent. cbn [eb_events eb_gone]. rewrite rev_app_distr. cbn [List.rev app].
  rewrite app_length. cbn [List.length]. destruct (is_begin _); [|reflexivity]. f_equal. lia.
Qed.

Lemma eb_parent_ok b : good b -> ptr_ok b (List.length (eb_events b)) (eb_parent b).
Proof.
  destruct b as [l g es]. intros G. destruct es as [|e es _] using rev_ind; [exact I|].
  rewrite eb_parent_app. cbn [eb_events]. rewrite app_length. cbn [List.length].
  assert (N : nth_error (es ++ [e]) (List.length es) = Some e).
  { rewrite nth_error_app2, Nat.sub_diag by lia. reflexivity. }
  destruct (is_begin (e_kind e)) eqn:B.
  - cbn. split; [lia|]. exists e. replace (g + List.length es - g)%nat with (List.length es) by lia. auto.
  - specialize (G _ _ N). unfold ptr_ok in *. destruct (e_parent e); [|exact I]. cbn in *.
    destruct G as [G1 G2]. split; [lia|exact G2].
Qed.

(** The events after the parent's count was updated. *)
Definition upd (b : ebuf) : list event :=
  match eb_parent b with
  | None => eb_events b
  | Some p => repl (p - eb_gone b) ev_update (eb_events b)
  end.

Lemma upd_length b : List.length (upd b) = List.length (eb_events b).
Proof. unfold upd. destruct (eb_parent b); [apply repl_length|reflexivity]. Qed.

Lemma parent_update_good b : good b ->
  parent_update b = Ok (eb_parent b, EBuf (eb_level b) (eb_gone b) (upd b)).
Proof.
  intros G. pose proof (eb_parent_ok b G) as P. unfold parent_update, upd. destruct (eb_parent b) as [p|].
  - cbn in P. destruct P as [P1 [e [P2 P3]]]. unfold eb_deref.
    destruct (Nat.ltb_spec p (eb_gone b)); [lia|]. rewrite P2. cbn [rbind]. unfold eb_store, repl. rewrite P2. reflexivity.
  - destruct b. reflexivity.
Qed.

Lemma ev_update_kind e : e_kind (ev_update e) = e_kind e.
Proof. destruct e as [k p n q]. unfold ev_update. cbn. destruct k; cbn; try reflexivity. destruct q; reflexivity. Qed.
Lemma ev_update_parent e : e_parent (ev_update e) = e_parent e.
Proof. destruct e as [k p n q]. unfold ev_update. cbn. destruct k; cbn; try reflexivity. destruct q; reflexivity. Qed.

Lemma good_upd b : good b -> good (EBuf (eb_level b) (eb_gone b) (upd b)).
Proof.
  intros G. unfold upd. destruct (eb_parent b) as [p|]; [|destruct b; exact G].
  intros i e. cbn [eb_events]. rewrite repl_nth. intros H.
  assert (E : exists e', nth_error (eb_events b) i = Some e' /\ e_parent e = e_parent e').
  { destruct (Nat.eqb_spec (p - eb_gone b) i).
    - destruct (nth_error (eb_events b) i) as [e'|]; [|discriminate]. injection H as <-.
      exists e'. split; [reflexivity|apply ev_update_parent].
    - exists e. auto. }
  destruct E as [e' [E1 E2]]. rewrite E2. specialize (G _ _ E1). unfold ptr_ok in *. destruct (e_parent e'); [|exact I].
  cbn [eb_gone eb_events]. destruct G as [G1 [e0 [G2 G3]]]. split; [exact G1|]. rewrite repl_nth. rewrite G2.
  match goal with |- context[Nat.eqb ?a ?b] => destruct (Nat.eqb a b) end; cbn; eexists; (split; [reflexivity|]); rewrite ?ev_update_kind; exact G3.
Qed.

Lemma good_push b k p d : good b -> ptr_ok b (List.length (eb_events b)) p -> good (eb_push b k p d).
Proof.
  intros G P i e. unfold eb_push. cbn [eb_events]. intros H.
  assert (K : forall i p, ptr_ok b i p -> ptr_ok (eb_push b k p d) i p /\ (i <= List.length (eb_events b) -> ptr_ok (EBuf (eb_level b + d) (eb_gone b) (eb_events b ++ [Event k p 0 true])) i p)%nat).
  { intros j q Q. destruct q; cbn; [|auto]. destruct Q as [Q1 [e0 [Q2 Q3]]]. split; [|intros _]; (split; [exact Q1|]);
      exists e0; (split; [|exact Q3]); rewrite nth_error_app1; auto; apply nth_error_Some; congruence. }
  destruct (Nat.lt_ge_cases i (List.length (eb_events b))) as [L|L].
  - rewrite nth_error_app1 in H by exact L. specialize (G _ _ H). unfold ptr_ok in *. destruct (e_parent e); [|exact I].
    cbn. destruct G as [G1 [e0 [G2 G3]]]. split; [exact G1|]. exists e0. split; [|exact G3].
    rewrite nth_error_app1; auto. apply nth_error_Some. congruence.
  - rewrite nth_error_app2 in H by exact L. destruct (i - List.length (eb_events b))%nat eqn:D; cbn in H; [|destruct n; discriminate].
    injection H as <-. cbn [e_parent]. unfold ptr_ok in *. destruct p; [|exact I]. destruct P as [P1 [e0 [P2 P3]]]. cbn.
    split; [lia|]. exists e0. split; [|exact P3]. rewrite nth_error_app1; auto. apply nth_error_Some. congruence.
Qed.

Lemma grand_parent_good b : good b -> exists p, grand_parent b = Ok p /\ ptr_ok b (List.length (eb_events b)) p /\
  p = match eb_parent b with None => None | Some q => match nth_error (eb_events b) (q - eb_gone b) with Some e => e_parent e | None => None end end.
Proof.
  intros G. pose proof (eb_parent_ok b G) as P. unfold grand_parent. destruct (eb_parent b) as [q|].
  - cbn in P. destruct P as [P1 [e [P2 P3]]]. exists (e_parent e). unfold eb_deref.
    destruct (Nat.ltb_spec q (eb_gone b)); [lia|]. rewrite P2. split; [reflexivity|]. split; [|reflexivity].
    specialize (G _ _ P2). unfold ptr_ok in *. destruct (e_parent e); [|exact I]. destruct G as [G1 G2]. split; [lia|exact G2].
  - exists None. repeat split.
Qed.

(** Recording never fails and keeps the pointers good. *)
Lemma eb_emit_good b e : good b -> exists b', eb_emit b e = Ok b' /\ good b'.
Proof.
  intros G. pose proof (eb_parent_ok b G) as P.
  assert (S : forall k d, exists b', (do (p, b1) <- parent_update b; Ok (eb_push b1 k p d)) = Ok b' /\ good b').
  { intros k d. rewrite parent_update_good by exact G. cbn [rbind]. eexists. split; [reflexivity|].
    apply good_push; [apply good_upd, G|]. cbn [eb_events]. rewrite upd_length.
    unfold upd. destruct (eb_parent b) as [q|]; [|exact I]. destruct P as [P1 [e0 [P2 P3]]]. split; [exact P1|].
    cbn [eb_events eb_gone]. rewrite repl_nth, P2, Nat.eqb_refl. cbn. eexists. split; [reflexivity|]. rewrite ev_update_kind. exact P3. }
  assert (D : forall k d, exists b', (do p <- grand_parent b; Ok (eb_push b k p d)) = Ok b' /\ good b').
  { intros k d. destruct (grand_parent_good b G) as [p [Q1 [Q2 _]]]. rewrite Q1. cbn [rbind]. eexists. split; [reflexivity|].
    apply good_push; auto. }
  destruct e; try apply S; try apply D.
  eexists. split; [reflexivity|]. apply good_push; auto.
Qed.

(** ** Trees of calls *)
Inductive tree :=
| TScalar (e : eev)
| TList (len : Z) (l : list tree)
| TMap (len : Z) (m : list (tree * tree)).

Section tree_ind.
  Variable P : tree -> Prop.
  Hypothesis HS : forall e, P (TScalar e).
  Hypothesis HL : forall n l, Forall P l -> P (TList n l).
  Hypothesis HM : forall n m, Forall (fun kv => P (fst kv) /\ P (snd kv)) m -> P (TMap n m).
  Fixpoint tree_ind' (t : tree) : P t :=
    match t with
    | TScalar e => HS e
    | TList n l => HL n l ((fix go l := match l return Forall P l with
                           | [] => Forall_nil _
                           | x :: t => Forall_cons _ (tree_ind' x) (go t) end) l)
    | TMap n m => HM n m ((fix go m := match m return Forall (fun kv => P (fst kv) /\ P (snd kv)) m with
                           | [] => Forall_nil _
                           | kv :: t => Forall_cons kv (conj (tree_ind' (fst kv)) (tree_ind' (snd kv))) (go t) end) m)
    end.
End tree_ind.

(** The calls that write a tree. *)
Fixpoint calls (t : tree) : list eev :=
  match t with
  | TScalar e => [e]
  | TList n l => EvBeginList n :: flat_map calls l ++ [EvEndList]
  | TMap n m => EvBeginMap n :: flat_map (fun kv => calls (fst kv) ++ calls (snd kv)) m ++ [EvEndMap]
  end.

(** A call that writes one scalar, with a C string or a blob of 1 to 2^32-1 bytes in at
    least one buffer. *)
Definition scalar_ok (e : eev) : Prop :=
  match e with
  | EvNull | EvTrue | EvFalse | EvInt _ | EvUns _ | EvFlt _ => True
  | EvStr s => ~ In (bchr 0) s
  | EvBlob b => b <> [] /\ N.of_nat (List.length (List.concat b)) < 2^32
  | _ => False
  end.

Fixpoint tree_ok (t : tree) : Prop :=
  match t with
  | TScalar e => scalar_ok e
  | TList _ l => N.of_nat (List.length l) < 2^64 /\
      (fix go l := match l with [] => True | x :: t => tree_ok x /\ go t end) l
  | TMap _ m => N.of_nat (List.length m) < 2^64 /\
      (fix go m := match m with [] => True | kv :: t => (tree_ok (fst kv) /\ tree_ok (snd kv)) /\ go t end) m
  end.

Lemma tree_ok_list n l : tree_ok (TList n l) <-> N.of_nat (List.length l) < 2^64 /\ Forall tree_ok l.
Proof.
  cbn [tree_ok]. assert (K : (fix go l := match l with [] => True | x :: t => tree_ok x /\ go t end) l <-> Forall tree_ok l).
  { induction l as [|x l IH]; [split; auto|]. rewrite IH. split; [intros [? ?]; constructor; auto|inversion 1; auto]. }
  tauto.
Qed.
Lemma tree_ok_map n m : tree_ok (TMap n m) <-> N.of_nat (List.length m) < 2^64 /\
  Forall (fun kv => tree_ok (fst kv) /\ tree_ok (snd kv)) m.
Proof.
  cbn [tree_ok]. assert (K : (fix go m := match m with [] => True | kv :: t => (tree_ok (fst kv) /\ tree_ok (snd kv)) /\ go t end) m
     <-> Forall (fun kv => tree_ok (fst kv) /\ tree_ok (snd kv)) m).
  { induction m as [|x l IH]; [split; auto|]. rewrite IH. split; [intros [? ?]; constructor; auto|inversion 1; auto]. }
  tauto.
Qed.

(** A blob is handed on as one buffer. *)
Definition one_buffer (e : eev) : eev :=
  match e with EvBlob b => EvBlob [List.concat b] | _ => e end.

(** The tree as played back: counts as recorded. *)
Fixpoint counted (t : tree) : tree :=
  match t with
  | TScalar e => TScalar (one_buffer e)
  | TList _ l => TList (int_of_u64 (N.of_nat (List.length l))) (List.map counted l)
  | TMap _ m => TMap (int_of_u64 (N.of_nat (List.length m))) (List.map (fun kv => (counted (fst kv), counted (snd kv))) m)
  end.

Lemma c_str_id s : ~ In (bchr 0) s -> c_str s = s.
Proof.
  induction s as [|c s IH]; intros H; cbn [c_str]; [reflexivity|].
  destruct (aeqb c (bchr 0)) eqn:E; [apply aeqb_eq in E; subst; exfalso; apply H; left; reflexivity|].
  f_equal. apply IH. intros K. apply H. right. exact K.
Qed.

Lemma total_length_small b : N.of_nat (List.length (List.concat b)) < 2^32 ->
  total_length b = N.of_nat (List.length (List.concat b)).
Proof.
  unfold total_length. intros H.
  assert (K : forall (b : list bytes) n, n + N.of_nat (List.length (List.concat b)) < 2^32 ->
     fold_left (fun n b => wrap32 (n + N.of_nat (List.length b))) b n = n + N.of_nat (List.length (List.concat b))).
  { clear. induction b as [|x b IH]; intros n H; cbn [fold_left List.concat List.length] in *; [lia|]. rewrite app_length in *. unfold wrap32 at 2.
    rewrite N.mod_small by lia. rewrite IH; lia. }
  rewrite K; lia.
Qed.

Lemma blob_copy_ok b : b <> [] -> N.of_nat (List.length (List.concat b)) < 2^32 -> blob_copy b = Ok [List.concat b].
Proof.
  intros N1 N2. unfold blob_copy, create_copy. destruct b; [congruence|]. rewrite total_length_small by exact N2.
  destruct (N.leb_spec (N.of_nat (List.length (List.concat (l :: b)))) (N.of_nat (List.length (List.concat (l :: b))))); [reflexivity|lia].
Qed.

Lemma emits_app b es es2 : eb_emits b (es ++ es2) = (do b1 <- eb_emits b es; eb_emits b1 es2).
Proof.
  revert b. induction es as [|e es IH]; intros b; cbn [app eb_emits rbind]; [reflexivity|].
  destruct (eb_emit b e); cbn [rbind]; auto.
Qed.

Lemma fires_app es es2 : ev_fires (es ++ es2) = (do x <- ev_fires es; do y <- ev_fires es2; Ok (x ++ y)).
Proof.
  induction es as [|e es IH]; cbn [app ev_fires rbind].
  - destruct (ev_fires es2); reflexivity.
  - destruct (ev_fire e); cbn [rbind]; try reflexivity. rewrite IH. destruct (ev_fires es); cbn [rbind]; try reflexivity.
    destruct (ev_fires es2); reflexivity.
Qed.

(** Recording one tree: the parent's count goes up by one call, the block of the tree's
    events follows, and the parent is current again. *)
Definition records (t : tree) : Prop := tree_ok t -> forall b, good b ->
  exists blk, let b' := EBuf (eb_level b) (eb_gone b) (upd b ++ blk) in
    eb_emits b (calls t) = Ok b' /\ good b' /\ eb_parent b' = eb_parent b /\ ev_fires blk = Ok (calls (counted t)).

Lemma emits_good b es b' : good b -> eb_emits b es = Ok b' -> good b'.
Proof.
  revert b. induction es as [|e es IH]; intros b G H; cbn [eb_emits] in H; [injection H as <-; exact G|].
  destruct (eb_emit_good b e G) as [b1 [E1 G1]]. rewrite E1 in H. eapply IH; eauto.
Qed.

Lemma records_scalar e : records (TScalar e).
Proof.
  intros OK b G. cbn [tree_ok] in OK.
  assert (S : forall k f, (forall b, eb_emit b e = (do (p, b1) <- parent_update b; Ok (eb_push b1 k p 0))) -> is_begin k = false ->
     (forall p, ev_fire (Event k p 0 true) = Ok f) -> f = one_buffer e ->
     exists blk, let b' := EBuf (eb_level b) (eb_gone b) (upd b ++ blk) in
    eb_emits b (calls (TScalar e)) = Ok b' /\ good b' /\ eb_parent b' = eb_parent b /\ ev_fires blk = Ok (calls (counted (TScalar e)))).
  { intros k f EM B F1 F2. exists [Event k (eb_parent b) 0 true]. cbv zeta.
    assert (E : eb_emits b (calls (TScalar e)) = Ok (EBuf (eb_level b) (eb_gone b) (upd b ++ [Event k (eb_parent b) 0 true]))).
    { cbn [calls eb_emits]. rewrite EM, parent_update_good by exact G. cbn [rbind]. unfold eb_push. cbn. rewrite Z.add_0_r. reflexivity. }
    split; [exact E|]. split; [eapply emits_good; eauto|]. split.
    - rewrite eb_parent_app. cbn [e_kind]. rewrite B. reflexivity.
    - cbn [ev_fires]. rewrite F1, F2. reflexivity. }
  destruct e; cbn [scalar_ok] in OK; try solve [destruct OK].
  - apply (S KNull EvNull); reflexivity.
  - apply (S (KBool true) EvTrue); reflexivity.
  - apply (S (KBool false) EvFalse); reflexivity.
  - apply (S (KStr (c_str s)) (EvStr s)); try reflexivity. intros p. unfold ev_fire. cbn [e_kind]. do 2 f_equal.
    rewrite !c_str_id; auto. rewrite c_str_id; auto.
  - apply (S (KInt z) (EvInt z)); reflexivity.
  - apply (S (KUns n) (EvUns n)); reflexivity.
  - apply (S (KFlt d) (EvFlt d)); reflexivity.
  - apply (S (KBlob b0) (EvBlob [List.concat b0])); try reflexivity. intros p. unfold ev_fire. cbn [e_kind].
    destruct OK as [O1 O2]. rewrite blob_copy_ok; auto.
Qed.

(** Closing a map or list whose begin event is at the end of [es]. *)
Lemma close_good b es x blk k : b = EBuf (eb_level b) (eb_gone b) (es ++ x :: blk) -> good b ->
  eb_parent b = Some (eb_gone b + List.length es)%nat ->
  grand_parent b = Ok (e_parent x) /\
  (is_begin k = false -> eb_parent (eb_push b k (e_parent x) (-1)) = e_parent x).
Proof.
  intros E G P. destruct (grand_parent_good b G) as [p [Q1 [Q2 Q3]]]. rewrite P in Q3.
  replace (eb_gone b + List.length es - eb_gone b)%nat with (List.length es) in Q3 by lia.
  assert (N : nth_error (eb_events b) (List.length es) = Some x).
  { rewrite E. cbn [eb_events]. rewrite nth_error_app2, Nat.sub_diag by lia. reflexivity. }
  rewrite N in Q3. subst p. split; [exact Q1|]. intros K. unfold eb_push. rewrite eb_parent_app. cbn [e_kind]. rewrite K. reflexivity.
Qed.

Lemma upd_parent l g es x blk : eb_parent (EBuf l g (es ++ x :: blk)) = Some (g + List.length es)%nat ->
  upd (EBuf l g (es ++ x :: blk)) = es ++ ev_update x :: blk.
Proof.
  intros P. unfold upd. rewrite P. cbn [eb_gone eb_events]. replace (g + List.length es - g)%nat with (List.length es) by lia.
  apply repl_mid.
Qed.

(** The elements of an open list. *)
Lemma records_elems l : Forall records l -> Forall tree_ok l -> forall lv g es par n q blk ys,
  N.of_nat (List.length l) + n < 2^64 ->
  let x := Event KBeginList par n q in
  let b := EBuf lv g (es ++ x :: blk) in
  good b -> eb_parent b = Some (g + List.length es)%nat -> ev_fires blk = Ok ys ->
  exists blk', let b' := EBuf lv g (es ++ Event KBeginList par (n + N.of_nat (List.length l)) q :: blk') in
    eb_emits b (flat_map calls l) = Ok b' /\ good b' /\ eb_parent b' = eb_parent b /\
    ev_fires blk' = Ok (ys ++ flat_map calls (List.map counted l)).
Proof.
  intros R. induction R as [|t l Rt Rl IH]; intros O lv g es par n q blk ys Hn x b G P F.
  - exists blk. cbn [flat_map List.map List.length eb_emits]. rewrite app_nil_r. replace (n + N.of_nat 0) with n by lia. cbv zeta. auto.
  - inversion O; subst. destruct (Rt H1 b G) as [b1 [E1 [G1 [P1 F1]]]].
    assert (U : upd b = es ++ Event KBeginList par (n + 1) q :: blk).
    { unfold b. rewrite upd_parent by exact P. unfold ev_update, x. cbn. do 3 f_equal. unfold wrap64. cbn [List.length] in Hn.
      apply N.mod_small. lia. }
    rewrite U in *. cbn [eb_level eb_gone b] in *. rewrite <- app_assoc in *. cbn [app] in *.
    edestruct (IH H2 lv g es par (n+1) q (blk ++ b1)) as [blk' [E2 [G2 [P2 F2]]]].
    + cbn [List.length] in Hn. lia.
    + exact G1.
    + rewrite P1. exact P.
    + rewrite fires_app, F, F1. reflexivity.
    + exists blk'. cbv zeta. cbn [flat_map]. rewrite emits_app, E1. cbn [rbind]. rewrite E2.
      cbn [List.length]. replace (n + N.of_nat (S (List.length l))) with (n + 1 + N.of_nat (List.length l)) by lia.
      split; [reflexivity|]. split; [exact G2|]. split; [rewrite P2; exact P1|]. rewrite F2. cbn [List.map flat_map].
      rewrite app_assoc. reflexivity.
Qed.

(** The entries of an open map. *)
Lemma records_entries l : Forall (fun kv => records (fst kv) /\ records (snd kv)) l ->
  Forall (fun kv => tree_ok (fst kv) /\ tree_ok (snd kv)) l -> forall lv g es par n blk ys,
  N.of_nat (List.length l) + n < 2^64 ->
  let x := Event KBeginMap par n true in
  let b := EBuf lv g (es ++ x :: blk) in
  good b -> eb_parent b = Some (g + List.length es)%nat -> ev_fires blk = Ok ys ->
  exists blk', let b' := EBuf lv g (es ++ Event KBeginMap par (n + N.of_nat (List.length l)) true :: blk') in
    eb_emits b (flat_map (fun kv => calls (fst kv) ++ calls (snd kv)) l) = Ok b' /\ good b' /\ eb_parent b' = eb_parent b /\
    ev_fires blk' = Ok (ys ++ flat_map (fun kv => calls (fst kv) ++ calls (snd kv)) (List.map (fun kv => (counted (fst kv), counted (snd kv))) l)).
Proof.
  intros R. induction R as [|t l Rt Rl IH]; intros O lv g es par n blk ys Hn x b G P F.
  - exists blk. cbn [flat_map List.map List.length eb_emits]. rewrite app_nil_r. replace (n + N.of_nat 0) with n by lia. cbv zeta. auto.
  - inversion O; subst. destruct Rt as [Rk Rv]. destruct H1 as [Ok1 Ok2].
    destruct (Rk Ok1 b G) as [b1 [E1 [G1 [P1 F1]]]].
    assert (U : upd b = es ++ Event KBeginMap par n false :: blk).
    { unfold b. rewrite upd_parent by exact P. reflexivity. }
    rewrite U in *. cbn [eb_level eb_gone b] in *. rewrite <- app_assoc in *. cbn [app] in *.
    destruct (Rv Ok2 _ G1) as [b2 [E2 [G2 [P2 F2]]]].
    assert (U2 : upd (EBuf lv g (es ++ Event KBeginMap par n false :: blk ++ b1)) = es ++ Event KBeginMap par (n + 1) true :: blk ++ b1).
    { rewrite upd_parent by (rewrite P1; exact P). unfold ev_update. cbn. do 3 f_equal. unfold wrap64. cbn [List.length] in Hn.
      apply N.mod_small. lia. }
    rewrite U2 in *. cbn [eb_level eb_gone] in *. rewrite <- app_assoc in *. cbn [app] in *. rewrite <- app_assoc in *.
    edestruct (IH H2 lv g es par (n+1) (blk ++ b1 ++ b2)) as [blk' [E3 [G3 [P3 F3]]]].
    + cbn [List.length] in Hn. lia.
    + exact G2.
    + rewrite P2, P1. exact P.
    + rewrite !fires_app, F, F1. cbn [rbind]. rewrite F2. reflexivity.
    + exists blk'. cbv zeta. cbn [flat_map]. rewrite <- app_assoc, emits_app, E1. cbn [rbind]. rewrite emits_app, E2. cbn [rbind].
      rewrite E3.
      cbn [List.length]. replace (n + N.of_nat (S (List.length l))) with (n + 1 + N.of_nat (List.length l)) by lia.
      split; [reflexivity|]. split; [exact G3|]. split; [rewrite P3, P2; exact P1|]. rewrite F3. cbn [List.map flat_map fst snd].
      rewrite <- !app_assoc. reflexivity.
Qed.

Lemma int_of_u64_small n : n < 2^31 -> int_of_u64 n = Z.of_N n.
Proof. unfold int_of_u64. intros H. change (2^31)%Z with 2147483648%Z. change (2^32)%Z with 4294967296%Z. rewrite Z.mod_small; lia. Qed.

Lemma records_container (k0 k1 : ekind) (e0 e1 : eev) b (inner : list eev) n ys :
  (forall b, eb_emit b e0 = do (p, b1) <- parent_update b; Ok (eb_push b1 k0 p 1)) ->
  (forall b, eb_emit b e1 = do p <- grand_parent b; Ok (eb_push b k1 p (-1))) ->
  is_begin k0 = true -> is_begin k1 = false ->
  good b ->
  (forall lv g es par, let b1 := EBuf lv g (es ++ [Event k0 par 0 true]) in
     good b1 -> eb_parent b1 = Some (g + List.length es)%nat ->
     exists blk, let b' := EBuf lv g (es ++ Event k0 par n true :: blk) in
       eb_emits b1 inner = Ok b' /\ good b' /\ eb_parent b' = eb_parent b1 /\ ev_fires blk = Ok ys) ->
  exists blk, let b' := EBuf (eb_level b) (eb_gone b) (upd b ++ Event k0 (eb_parent b) n true :: blk ++ [Event k1 (eb_parent b) 0 true]) in
    eb_emits b (e0 :: inner ++ [e1]) = Ok b' /\ good b' /\ eb_parent b' = eb_parent b /\ ev_fires blk = Ok ys.
Proof.
  intros E0 E1 B0 B1 G I. set (par := eb_parent b) in *.
  destruct (eb_emit_good b e0 G) as [b1 [S1 G1]].
  assert (T1 : b1 = EBuf (eb_level b + 1) (eb_gone b) (upd b ++ [Event k0 par 0 true])).
  { rewrite E0, parent_update_good in S1 by exact G. cbn [rbind] in S1. injection S1 as <-. reflexivity. }
  edestruct (I (eb_level b + 1)%Z (eb_gone b) (upd b) par) as [blk [S2 [G2 [P2 F2]]]].
  { rewrite <- T1. exact G1. }
  { rewrite eb_parent_app. cbn [e_kind]. rewrite B0. reflexivity. }
  assert (P1 : eb_parent (EBuf (eb_level b + 1) (eb_gone b) (upd b ++ [Event k0 par 0 true])) = Some (eb_gone b + List.length (upd b))%nat).
  { rewrite eb_parent_app. cbn [e_kind]. rewrite B0. reflexivity. }
  rewrite P1 in P2.
  destruct (close_good _ _ _ _ k1 eq_refl G2 P2) as [C1 C2].
  exists blk. cbv zeta.
  assert (E : eb_emits b (e0 :: inner ++ [e1]) = Ok (EBuf (eb_level b) (eb_gone b) (upd b ++ Event k0 par n true :: blk ++ [Event k1 par 0 true]))).
  { cbn [eb_emits]. rewrite S1. cbn [rbind]. rewrite emits_app, T1, S2. cbn [rbind eb_emits]. rewrite E1, C1. cbn [rbind e_parent].
    unfold eb_push. cbn [eb_level eb_gone eb_events]. rewrite <- app_assoc. cbn [app]. do 2 f_equal. lia. }
  split; [exact E|]. split; [exact (emits_good _ _ _ G E)|]. split; [|exact F2].
  specialize (C2 B1). cbn [e_parent] in C2. etransitivity; [|exact C2]. unfold eb_push. cbn [eb_level eb_gone eb_events].
  unfold eb_parent. cbn [eb_events eb_gone]. rewrite <- app_assoc. reflexivity.
Qed.

Theorem records_all t : records t.
Proof.
  induction t as [e|n l IH|n m IH] using tree_ind'.
  - apply records_scalar.
  - intros OK b G. apply tree_ok_list in OK as [O1 O2].
    destruct (records_container KBeginList KEndList (EvBeginList n) EvEndList b (flat_map calls l) (N.of_nat (List.length l))
                (flat_map calls (List.map counted l))) as [blk [E [G' [P F]]]]; auto.
    + intros lv g es par b1 G1 P1. edestruct (records_elems l IH O2 lv g es par 0 true []) as [blk H]; try reflexivity; try eassumption; [lia|].
      exists blk. exact H.
    + exists (Event KBeginList (eb_parent b) (N.of_nat (List.length l)) true :: blk ++ [Event KEndList (eb_parent b) 0 true]).
      cbv zeta. split; [exact E|]. split; [exact G'|]. split; [exact P|].
      cbn [ev_fires]. rewrite fires_app, F. reflexivity.
  - intros OK b G. apply tree_ok_map in OK as [O1 O2].
    destruct (records_container KBeginMap KEndMap (EvBeginMap n) EvEndMap b (flat_map (fun kv => calls (fst kv) ++ calls (snd kv)) m) (N.of_nat (List.length m))
                (flat_map (fun kv => calls (fst kv) ++ calls (snd kv)) (List.map (fun kv => (counted (fst kv), counted (snd kv))) m))) as [blk [E [G' [P F]]]]; auto.
    + intros lv g es par b1 G1 P1. edestruct (records_entries m IH O2 lv g es par 0 []) as [blk H]; try reflexivity; try eassumption; [lia|].
      exists blk. exact H.
    + exists (Event KBeginMap (eb_parent b) (N.of_nat (List.length m)) true :: blk ++ [Event KEndMap (eb_parent b) 0 true]).
      cbv zeta. split; [exact E|]. split; [exact G'|]. split; [exact P|].
      cbn [ev_fires]. rewrite fires_app, F. reflexivity.
Qed.
