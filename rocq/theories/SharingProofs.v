(** Proofs about copies and shared storage. *)
From Verif Require Import Base Float Value Blob Path Numeric Heap HeapProofs HeapSpec.
Open Scope N_scope.

(** ** What is seen through a side depends on the storages of the side *)
Section Agree.
  Variables (S V : nat -> Prop) (st st' : hstate).
  Hypothesis C : closed S V st.
  Hypothesis H : forall s, S s -> nth_error (h_heap st') s = nth_error (h_heap st) s.

  Lemma child_agree c e : inside S st c -> child st' c e = child st c e.
  Proof.
    intros I. destruct c, e; cbn in *; auto; rewrite H by apply I; reflexivity.
  Qed.
  Lemma child_inside c e c' : inside S st c -> child st c e = Some c' -> inside S st c'.
  Proof.
    intros I E. destruct c; destruct e; try discriminate E; cbn in I, E;
      destruct (nth_error (h_heap st) s) as [[b|cs|m|b]|] eqn:F; try discriminate.
    - apply (cl_heap _ _ _ C _ _ _ (proj1 I) F). apply (nth_error_In _ _ E).
    - apply (cl_heap _ _ _ C _ _ _ (proj1 I) F). cbn. apply mget_In in E. apply (in_map snd) in E. exact E.
  Qed.
  Lemma cell_at_agree p : forall c, inside S st c -> cell_at st' c p = cell_at st c p.
  Proof.
    induction p as [|e p IH]; intros c I; cbn; auto.
    rewrite child_agree by auto. destruct (child st c e) as [c'|] eqn:E; auto. apply IH, (child_inside _ _ _ I E).
  Qed.
  Lemma cell_at_inside p : forall c d, inside S st c -> cell_at st c p = Some d -> inside S st d.
  Proof.
    induction p as [|e p IH]; intros c d I E; cbn in E.
    - injection E as <-. exact I.
    - destruct (child st c e) as [c'|] eqn:F; [|discriminate]. apply (IH c'); auto. apply (child_inside _ _ _ I F).
  Qed.
  Lemma shape_agree c : inside S st c -> shape_of st' c = shape_of st c.
  Proof. intros I. destruct c as [| | | | |s|s|s|[s|]]; cbn in *; auto; rewrite H by apply I; reflexivity. Qed.

  Lemma see_agree x p : V x -> nth_error (h_vars st') x = nth_error (h_vars st) x -> see st' x p = see st x p.
  Proof.
    intros Vx E. unfold see. rewrite E. destruct (nth_error (h_vars st) x) as [c|] eqn:F; auto.
    pose proof (cl_vars _ _ _ C _ _ Vx F) as I. rewrite cell_at_agree by auto.
    destruct (cell_at st c p) as [d|] eqn:D; auto. rewrite shape_agree; auto. eapply cell_at_inside; eauto.
  Qed.
End Agree.

(** ** Two separate sides stay separate *)
Definition sep (V : nat -> Prop) (st : hstate) : Prop :=
  exists S1 S2, closed S1 V st /\ closed S2 (fun x => ~ V x) st /\ forall s, S1 s -> S2 s -> False.

Lemma closed_evolve V W S1 S2 st S' st' :
  evolve V S1 st S' st' -> closed S2 W st -> (forall s, S1 s -> S2 s -> False) -> (forall x, W x -> ~ V x) ->
  closed S2 W st' /\ (forall s, S' s -> S2 s -> False) /\
  (forall s, S2 s -> nth_error (h_heap st') s = nth_error (h_heap st) s).
Proof.
  intros E C D N.
  assert (HH : forall s, S2 s -> nth_error (h_heap st') s = nth_error (h_heap st) s).
  { intros s Hs. apply (ev_heap _ _ _ _ _ E). apply (cl_bound _ _ _ C _ Hs). intros K. apply (D s); auto. }
  assert (II : forall c, inside S2 st c -> inside S2 st' c).
  { intros c. apply inside_mono; auto. apply (ev_kind _ _ _ _ _ E). }
  split; [split|split]; auto.
  - intros x c Wx Ex. rewrite (ev_vars _ _ _ _ _ E) in Ex by auto. apply II, (cl_vars _ _ _ C _ _ Wx Ex).
  - intros s x c Hs Ex I. rewrite HH in Ex by auto. apply II, (cl_heap _ _ _ C _ _ _ Hs Ex I).
  - intros s x Hs Ex. rewrite HH in Ex by auto. apply (cl_sort _ _ _ C _ _ Hs Ex).
  - intros s Hs. pose proof (cl_bound _ _ _ C _ Hs). pose proof (ev_len _ _ _ _ _ E). lia.
  - intros s A B. rewrite (ev_set _ _ _ _ _ E) in A. destruct A as [A|A]; [apply (D s A B)|].
    pose proof (cl_bound _ _ _ C _ B). lia.
Qed.

Definition one_sided (V : nat -> Prop) (o : op) : Prop := op_in V o \/ op_in (fun x => ~ V x) o.

Lemma closed_ext (S V V' : nat -> Prop) st : (forall x, V' x -> V x) -> closed S V st -> closed S V' st.
Proof. intros H C. destruct C as [c1 c2 c3 c4]. split; auto. intros x c Vx. apply c1. auto. Qed.

Lemma sep_exec V st o r st' : sep V st -> one_sided V o -> exec o st = (r, st') ->
  sep V st' /\
  (op_in V o -> forall x p, ~ V x -> see st' x p = see st x p) /\
  (op_in (fun x => ~ V x) o -> (forall x, ~ ~ V x -> V x) -> forall x p, V x -> see st' x p = see st x p).
Proof.
  intros (S1 & S2 & C1 & C2 & D) O E.
  assert (A : op_in V o -> sep V st' /\ forall x p, ~ V x -> see st' x p = see st x p).
  { intros I. destruct (conf_exec V T o (stable_T V) I S1 st r st' C1 Logic.I E) as (S' & Ev & _).
    destruct (closed_evolve V (fun x => ~ V x) S1 S2 st S' st' Ev C2 D) as (C2' & D' & HH); auto.
    split. exists S', S2. repeat split; auto; try apply C2'; apply (ev_closed _ _ _ _ _ Ev).
    intros x p Nx. apply (see_agree S2 (fun x => ~ V x) st st'); auto. apply (ev_vars _ _ _ _ _ Ev); auto. }
  assert (B : op_in (fun x => ~ V x) o -> sep V st' /\ forall x p, V x -> see st' x p = see st x p).
  { intros I. destruct (conf_exec (fun x => ~ V x) T o (stable_T _) I S2 st r st' C2 Logic.I E) as (S' & Ev & _).
    destruct (closed_evolve (fun x => ~ V x) V S2 S1 st S' st' Ev C1) as (C1' & D' & HH); auto.
    { intros s X Y. apply (D s Y X). }
    split. exists S1, S'. split; [exact C1'|]. split; [apply (ev_closed _ _ _ _ _ Ev)|]. intros s X Y. apply (D' s Y X).
    intros x p Nx. apply (see_agree S1 V st st'); auto. apply (ev_vars _ _ _ _ _ Ev); auto. }
  split; [destruct O; [apply A|apply B]; auto|]. split; [intros I; apply A, I|intros I _; apply B, I].
Qed.

Lemma sep_execs V os : forall st b st', sep V st -> Forall (one_sided V) os -> execs os st = (b, st') -> sep V st'.
Proof.
  induction os as [|o os IH]; intros st b st' H F E; cbn [execs] in E.
  - injection E as <- <-. exact H.
  - inversion F as [|? ? Ho Hos]; subst. destruct (exec o st) as [r st1] eqn:E1.
    destruct (sep_exec _ _ _ _ _ H Ho E1) as [H1 _].
    destruct r; try (injection E as <- <-; exact H1); eapply IH; eauto.
Qed.

(** ** Assigning a copy separates the target *)
Lemma exec_assign_copy st z fuel src st' :
  exec (OAssign (LV z []) (RvCopy fuel src)) st = (Ok tt, st') ->
  exists c c' st1, read_lval src st = (Ok c, st) /\ copy fuel c st = (Ok c', st1) /\
    nth_error (h_vars st1) z <> None /\ st' = HState (lput (h_vars st1) z c') (h_heap st1).
Proof.
  intros E. cbn [exec eval_rval] in E. unfold bind at 1 2 in E.
  pose proof (pure_read_lval src st) as P. destruct (read_lval src st) as [[c| | | |] st0] eqn:R; try discriminate.
  cbn in P. subst st0. destruct (copy fuel c st) as [[c'| | | |] st1] eqn:K; try discriminate.
  cbn in E. unfold target_create, eval_lval, at_path, resolve_create, bind, ret in E. cbn in E.
  unfold assign, store in E. cbn in E. destruct (nth_error (h_vars st1) z) as [c0|] eqn:N; try discriminate.
  injection E as <-. exists c, c', st1. repeat split; auto. congruence.
Qed.

Lemma read_lval_inside S V st v c : closed S V st -> V (lv_var v) -> read_lval v st = (Ok c, st) -> inside S st c.
Proof.
  intros C Vv E. destruct (conf_read_lval V T v (stable_T V) Vv S st _ _ C Logic.I E) as (S' & Ev & I).
  specialize (I c eq_refl). eapply inside_mono; [| |apply I]; auto.
  intros s Hs. apply (ev_set _ _ _ _ _ Ev) in Hs. destruct Hs; auto. lia.
Qed.

Lemma copy_sep st z fuel src st' : wf st ->
  exec (OAssign (LV z []) (RvCopy fuel src)) st = (Ok tt, st') -> sep (only z) st'.
Proof.
  intros W E. destruct (exec_assign_copy _ _ _ _ _ E) as (c & c' & st1 & R & K & N & ->).
  pose proof (read_lval_inside _ _ _ _ _ W Logic.I R) as I.
  assert (C0 : closed (fun s => (s < hlen st)%nat) none st). { apply (closed_ext _ _ _ _ (fun x (H : none x) => Logic.I) W). }
  destruct (copy_grown _ _ _ _ _ _ C0 I K) as [G J]. specialize (J _ eq_refl).
  pose proof (closed_grown _ _ _ _ W G) as W1.
  set (st' := HState (lput (h_vars st1) z c') (h_heap st1)).
  exists (between (hlen st) (hlen st1)), (fun s => (s < hlen st)%nat). split; [|split].
  - split.
    + intros x d Hx Ex. unfold only in Hx. subst x. unfold st' in Ex. cbn in Ex. rewrite nth_lput, Nat.eqb_refl in Ex.
      destruct (nth_error (h_vars st1) z); [|discriminate]. injection Ex as <-. eapply inside_mono; [| |exact J]; auto.
    + intros s x d Hs Ex D. eapply inside_mono; [| |eapply (gr_new _ _ G); eauto]; auto.
    + intros s x Hs Ex. eapply (gr_sort _ _ G); eauto.
    + intros s [_ Hs]. exact Hs.
  - split.
    + intros x d Hx Ex. unfold st' in Ex. cbn in Ex. rewrite nth_lput in Ex. unfold only in Hx.
      destruct (Nat.eqb_spec x z); [contradiction|]. pose proof (cl_vars _ _ _ W1 _ _ Logic.I Ex) as X.
      eapply inside_mono; [| |exact X]; auto.
    + intros s x d Hs Ex D. pose proof (cl_heap _ _ _ W1 _ _ _ Hs Ex D) as X. eapply inside_mono; [| |exact X]; auto.
    + intros s x Hs Ex. apply (cl_sort _ _ _ W1 _ _ Hs Ex).
    + apply (cl_bound _ _ _ W1).
  - unfold between. intros; lia.
Qed.

(** ** The copy shows what the original shows; a blob is put in one buffer *)
Definition norm (h : shape) : shape := match h with ShBlob (Some b) => ShBlob (Some [List.concat b]) | _ => h end.
Definition shows (st : hstate) (c : cell) (p : path) : option shape :=
  match cell_at st c p with Some d => Some (shape_of st d) | None => None end.

Lemma shows_cons st c e p : shows st c (e :: p) = match child st c e with Some d => shows st d p | None => None end.
Proof. unfold shows. cbn. destruct (child st c e); reflexivity. Qed.

Lemma shows_grown S st st' c p : closed S none st -> grown st st' -> inside S st c -> shows st' c p = shows st c p.
Proof.
  intros C G I. unfold shows.
  assert (H : forall s, S s -> nth_error (h_heap st') s = nth_error (h_heap st) s).
  { intros s Hs. apply grown_nth_old; auto. apply (cl_bound _ _ _ C _ Hs). }
  rewrite (cell_at_agree S none st st' C H) by auto. destruct (cell_at st c p) as [d|] eqn:D; auto.
  rewrite (shape_agree S st st' H); auto. eapply cell_at_inside; eauto.
Qed.

(** Elementwise relation between a list of cells and their copies. *)
Definition same_shows (st st' : hstate) (c c' : cell) : Prop := forall p, shows st' c' p = option_map norm (shows st c p).

Lemma F2_len {A B} (R : A -> B -> Prop) l l' : Forall2 R l l' -> List.length l = List.length l'.
Proof. induction 1; cbn; auto. Qed.
Lemma nth_error_F2 {A B} (R : A -> B -> Prop) l l' i : Forall2 R l l' ->
  match nth_error l i, nth_error l' i with Some a, Some b => R a b | None, None => True | _, _ => False end.
Proof. intros F. revert i; induction F; intros [|i]; cbn; auto. apply IHF. Qed.

Lemma mget_F2 {A B} (R : A -> B -> Prop) (m : list (bytes * A)) (m' : list (bytes * B)) k :
  Forall2 (fun a b => fst a = fst b /\ R (snd a) (snd b)) m m' ->
  match mget k m, mget k m' with Some a, Some b => R a b | None, None => True | _, _ => False end.
Proof.
  intros F. induction F as [|[k1 a] [k2 b] m m' [E H] F IH]; cbn in *; auto. subst k2.
  destruct (beqb k k1); auto.
Qed.

Definition copied (st st' : hstate) (c c' : cell) : Prop :=
  same_shows st st' c c' /\ inside (between (hlen st) (hlen st')) st' c'.

(** What was copied remains so while more is copied. *)
Lemma copied_later st st1 st2 c c' : grown st st1 -> grown st1 st2 -> copied st st1 c c' -> copied st st2 c c'.
Proof.
  intros G1 G2 [A B]. split; [|eapply grown_inside; eauto].
  intros p. rewrite <- (A p). apply (shows_grown (between (hlen st) (hlen st1))); auto.
  split; [intros ? ? []|apply (gr_new _ _ G1)|apply (gr_sort _ _ G1)|intros s [_ Hs]; exact Hs].
Qed.
Lemma copied_earlier S st st1 st2 c c' : closed S none st -> inside S st c -> grown st st1 ->
  copied st1 st2 c c' -> copied st st2 c c'.
Proof.
  intros C I G [A B]. split.
  - intros p. rewrite (A p), (shows_grown S st st1); auto.
  - eapply inside_mono; [| |exact B]; auto. pose proof (grown_len _ _ G). unfold between; intros; lia.
Qed.

Lemma copy_shows fuel : forall S c st c' st', closed S none st -> inside S st c -> copy fuel c st = (Ok c', st') ->
  copied st st' c c'.
Proof.
  induction fuel as [|f IH]; intros S c st c' st' SH SI E; [discriminate|].
  split; [|apply (copy_grown _ _ _ _ _ _ SH SI E); reflexivity]. cbn [copy] in E.
  assert (ML : forall l st l' st', closed S none st -> allc l S st -> map_m (copy f) l st = (Ok l', st') ->
     grown st st' /\ Forall2 (copied st st') l l').
  { clear c st c' st' SH SI E. induction l as [|x l IHl]; intros st l' st' SH SI E; cbn [map_m] in E.
    - injection E as <- <-. split; [apply grown_refl|constructor].
    - unfold bind in E. destruct (copy f x st) as [[y| | | |] st1] eqn:E1; try discriminate.
      destruct (copy_grown _ _ _ _ _ _ SH (SI _ (or_introl eq_refl)) E1) as [G1 I1].
      destruct (map_m (copy f) l st1) as [[ys| | | |] st2] eqn:E2; try discriminate. injection E as <- <-.
      destruct (IHl _ _ _ (closed_grown _ _ _ _ SH G1) (fun c I => inside_grown _ _ _ _ G1 (SI c (or_intror I))) E2) as [G2 F2].
      split; [eapply grown_trans; eauto|]. constructor.
      + apply (copied_later st st1); auto. apply (IH S); auto. apply SI. left. reflexivity.
      + assert (SI' : allc l S st) by (intros c Ic; apply SI; right; exact Ic). clear -F2 G1 SI' SH.
        induction F2 as [|a b la lb Hab F2 IHF]; constructor.
        * apply (copied_earlier S st st1); auto. apply SI'. left. reflexivity.
        * apply IHF. intros c Ic. apply SI'. right. exact Ic. }
  assert (MM : forall (l : list (bytes * cell)) st l' st', closed S none st -> allc (List.map snd l) S st ->
     map_m (fun kv => let* x := copy f (snd kv) in ret (fst kv, x)) l st = (Ok l', st') ->
     grown st st' /\ Forall2 (fun a b => fst a = fst b /\ copied st st' (snd a) (snd b)) l l').
  { clear c st c' st' SH SI E ML. induction l as [|[k x] l IHl]; intros st l' st' SH SI E; cbn [map_m] in E.
    - injection E as <- <-. split; [apply grown_refl|constructor].
    - unfold bind at 1 2 in E. cbn [fst snd] in E. destruct (copy f x st) as [[y| | | |] st1] eqn:E1; try discriminate.
      destruct (copy_grown _ _ _ _ _ _ SH (SI _ (or_introl eq_refl)) E1) as [G1 I1].
      cbn [ret] in E. unfold bind in E at 1.
      destruct (map_m (fun kv => let* x := copy f (snd kv) in ret (fst kv, x)) l st1) as [[ys| | | |] st2] eqn:E2; try discriminate. injection E as <- <-.
      destruct (IHl _ _ _ (closed_grown _ _ _ _ SH G1) (fun c I => inside_grown _ _ _ _ G1 (SI c (or_intror I))) E2) as [G2 F2].
      split; [eapply grown_trans; eauto|]. constructor.
      + split; [reflexivity|]. apply (copied_later st st1); auto. apply (IH S); auto. apply SI. left. reflexivity.
      + assert (SI' : allc (List.map snd l) S st) by (intros c Ic; apply SI; right; exact Ic). clear -F2 G1 SI' SH.
        induction F2 as [|a b la lb [Hk Hab] F2 IHF]; constructor.
        * split; auto. apply (copied_earlier S st st1); auto. apply SI'. left. reflexivity.
        * apply IHF. intros c Ic. apply SI'. right. exact Ic. }
  assert (AL : forall st1 x n st2, alloc x st1 = (Ok n, st2) -> nth_error (h_heap st2) n = Some x).
  { intros st1 x n st2 A. unfold alloc in A. injection A as <- <-. cbn.
    rewrite nth_error_app2, Nat.sub_diag by lia. reflexivity. }
  (* the new container is put after the elements *)
  assert (SA : forall st1 x n st2 d p, alloc x st1 = (Ok n, st2) -> inside (between (hlen st) (hlen st1)) st1 d ->
     grown st st1 -> shows st2 d p = shows st1 d p).
  { intros st1 x n st2 d p A Id G. unfold alloc in A. injection A as <- <-.
    assert (CC : closed (between (hlen st) (hlen st1)) none st1).
    { split; [intros ? ? []|apply (gr_new _ _ G)|apply (gr_sort _ _ G)|intros s [_ Hs]; exact Hs]. }
    unfold shows. assert (H : forall s, between (hlen st) (hlen st1) s -> nth_error (h_heap (with_heap st1 (h_heap st1 ++ [x]))) s = nth_error (h_heap st1) s).
    { intros s Hs. cbn. apply nth_error_app1. apply Hs. }
    rewrite (cell_at_agree _ none st1 _ CC H) by auto. destruct (cell_at st1 d p) as [e|] eqn:D; auto.
    rewrite (shape_agree _ st1 _ H); auto. eapply cell_at_inside; eauto. }
  destruct c as [|b|z|n|x|s|s|s|[s|]];
    try (injection E as <- <-; intros [|e p]; [reflexivity|destruct e; reflexivity]).
  - unfold get_str, get_storage, bind, fail in E. destruct (nth_error (h_heap st) s) as [[b|l|m|b]|] eqn:H; try discriminate.
    cbn [ret] in E. destruct (alloc (StStr b) st) as [[n| | | |] st1] eqn:A; try discriminate. injection E as <- <-.
    pose proof (AL _ _ _ _ A) as N.
    intros [|e p]; unfold shows; cbn; [rewrite N, H; reflexivity|destruct e; reflexivity].
  - unfold get_list, get_storage, bind at 1 2, fail in E. destruct (nth_error (h_heap st) s) as [[b|l|m|b]|] eqn:H; try discriminate.
    cbn [ret] in E. unfold bind in E. destruct (map_m (copy f) l st) as [[l'| | | |] st1] eqn:E1; try discriminate.
    assert (AC : allc l S st) by (intros c; apply (cl_heap _ _ _ SH _ _ c (proj1 SI) H)).
    destruct (ML _ _ _ _ SH AC E1) as [G1 F1].
    destruct (alloc (StList l') st1) as [[n| | | |] st2] eqn:A; try discriminate. injection E as <- <-.
    pose proof (AL _ _ _ _ A) as N.
    intros [|e p].
    + unfold shows; cbn. rewrite N, H. cbn. rewrite (F2_len _ _ _ F1). reflexivity.
    + rewrite !shows_cons. destruct e; cbn; [reflexivity|]. rewrite N, H.
      pose proof (nth_error_F2 _ _ _ (N.to_nat i) F1) as X.
      destruct (nth_error l (N.to_nat i)) as [a|] eqn:Ea, (nth_error l' (N.to_nat i)) as [b|] eqn:Eb; try contradiction; auto.
      destruct X as [X Y]. rewrite <- (X p). apply (SA st1 _ _ _ _ _ A); auto.
  - unfold get_map, get_storage, bind at 1 2, fail in E. destruct (nth_error (h_heap st) s) as [[b|l|m|b]|] eqn:H; try discriminate.
    cbn [ret] in E. unfold bind at 1 in E.
    destruct (map_m (fun kv => let* x := copy f (snd kv) in ret (fst kv, x)) m st) as [[m'| | | |] st1] eqn:E1; try discriminate.
    assert (AC : allc (List.map snd m) S st) by (intros c; apply (cl_heap _ _ _ SH _ _ c (proj1 SI) H)).
    destruct (MM _ _ _ _ SH AC E1) as [G1 F1]. unfold bind in E.
    destruct (alloc (StMap m') st1) as [[n| | | |] st2] eqn:A; try discriminate. injection E as <- <-.
    pose proof (AL _ _ _ _ A) as N.
    intros [|e p].
    + unfold shows; cbn. rewrite N, H. cbn. do 2 f_equal. clear -F1. induction F1 as [|a b la lb [E _] F IH]; cbn; congruence.
    + rewrite !shows_cons. destruct e; cbn; [|reflexivity]. rewrite N, H.
      pose proof (mget_F2 _ _ _ k F1) as X.
      destruct (mget k m) as [a|] eqn:Ea, (mget k m') as [b|] eqn:Eb; try contradiction; auto.
      destruct X as [X Y]. rewrite <- (X p). apply (SA st1 _ _ _ _ _ A); auto.
  - unfold get_blob, get_storage, bind at 1 2, fail in E. destruct (nth_error (h_heap st) s) as [[b|l|m|b]|] eqn:H; try discriminate.
    cbn [ret] in E. unfold bind in E. destruct (blob_copy b) as [b'| | | |] eqn:B; try discriminate.
    destruct (alloc (StBlob b') st) as [[n| | | |] st1] eqn:A; try discriminate. injection E as <- <-.
    pose proof (AL _ _ _ _ A) as N. assert (b' = [List.concat b]) as ->.
    { unfold blob_copy in B. destruct b; [discriminate|]. unfold create_copy in B. destruct (_ <=? _); congruence. }
    intros [|e p]; unfold shows; cbn; [rewrite N, H; reflexivity|destruct e; reflexivity].
Qed.

(** ** Copying a tree succeeds *)
Fixpoint vdepth (v : value) : nat :=
  match v with
  | VList l => S ((fix go l := match l with [] => O | x :: t => Nat.max (vdepth x) (go t) end) l)
  | VMap m => S ((fix go m := match m with [] => O | kv :: t => Nat.max (vdepth (snd kv)) (go t) end) m)
  | _ => 1%nat
  end.
Fixpoint vdepths (l : list value) : nat := match l with [] => O | x :: t => Nat.max (vdepth x) (vdepths t) end.
Lemma vdepth_VList l : vdepth (VList l) = S (vdepths l).
Proof. reflexivity. Qed.
Lemma vdepth_VMap m : vdepth (VMap m) = S (vdepths (List.map snd m)).
Proof. cbn. f_equal. induction m; cbn; auto. Qed.

(** Every blob has a buffer and less than 2^32 bytes. *)
Fixpoint copyable (v : value) : Prop :=
  match v with
  | VBlob b => b <> [] /\ N.of_nat (List.length (List.concat b)) < 2 ^ 32
  | VList l => (fix go l := match l with [] => True | x :: t => copyable x /\ go t end) l
  | VMap m => (fix go m := match m with [] => True | kv :: t => copyable (snd kv) /\ go t end) m
  | _ => True
  end.
Fixpoint copyables (l : list value) : Prop := match l with [] => True | x :: t => copyable x /\ copyables t end.
Lemma copyable_VList l : copyable (VList l) -> copyables l.
Proof. exact (fun H => H). Qed.
Lemma copyable_VMap m : copyable (VMap m) -> copyables (List.map snd m).
Proof. cbn. induction m; cbn; auto. intros [A B]; auto. Qed.

Lemma reads_grown st st' : grown st st' -> forall v c, reads (h_heap st) v c -> reads (h_heap st') v c.
Proof.
  intros G. pose proof (fun s x => grown_nth st st' s x G) as N.
  induction v as [|b|z|n|x|b|l IH|m IH|b] using value_ind'; intros c; destruct c as [| | | | | | | |[s|]]; cbn; auto.
  - change (reads (h_heap st) (VList l) (CList s) -> reads (h_heap st') (VList l) (CList s)).
    rewrite !reads_VList. intros (cs & E & R). exists cs. split; auto. clear E. revert cs R.
    induction IH as [|v l Hv Hl IHl]; intros [|c cs] R; cbn in *; auto. destruct R; split; auto.
  - change (reads (h_heap st) (VMap m) (CMap s) -> reads (h_heap st') (VMap m) (CMap s)).
    rewrite !reads_VMap. intros (cs & E & R). exists cs. split; auto. clear E. revert cs R.
    induction IH as [|v l Hv Hl IHl]; intros [|c cs] R; cbn in *; auto. destruct R as (? & ? & ?); repeat split; auto.
Qed.

Lemma fold_total (b : blob) : forall n, n + N.of_nat (List.length (List.concat b)) < 2 ^ 32 ->
  fold_left (fun n b => wrap32 (n + N.of_nat (List.length b))) b n = n + N.of_nat (List.length (List.concat b)).
Proof.
  induction b as [|x b IH]; intros n H; cbn [fold_left List.concat].
  - cbn. lia.
  - cbn [List.concat] in H. rewrite app_length in *. unfold wrap32 at 2. rewrite N.mod_small by lia.
    rewrite IH by lia. lia.
Qed.

Lemma blob_copy_ok (b : blob) : b <> [] -> N.of_nat (List.length (List.concat b)) < 2 ^ 32 -> blob_copy b = Ok [List.concat b].
Proof.
  intros H L. unfold blob_copy. destruct b; [contradiction|]. unfold create_copy, total_length.
  rewrite fold_total by lia. rewrite N.add_0_l, N.leb_refl. reflexivity.
Qed.

Lemma copy_total v : forall f S c st, closed S none st -> inside S st c -> reads (h_heap st) v c -> copyable v ->
  (vdepth v <= f)%nat -> exists c' st', copy f c st = (Ok c', st').
Proof.
  assert (AL : forall x st, exists n st', alloc x st = (Ok n, st')) by (intros; unfold alloc; eauto).
  induction v as [|b|z|n|x|b|l IH|m IH|b] using value_ind'; intros f S c st C I R K D; destruct c as [| | | | | s|s|s|[s|]]; cbn in R; try contradiction;
    (destruct f as [|f]; [cbn in D; lia|]); cbn [copy]; try (eexists; eexists; reflexivity).
  - unfold bind at 1, get_str, get_storage, bind. rewrite R. cbn [ret]. destruct (AL (StStr b) st) as (n & st' & ->). unfold ret. eauto.
  - change (reads (h_heap st) (VList l) (CList s)) in R. apply reads_VList in R. destruct R as (cs & E & R).
    apply copyable_VList in K. rewrite vdepth_VList in D.
    assert (MM : exists l' st', map_m (copy f) cs st = (Ok l', st')).
    { assert (AC : allc cs S st) by (intros d; apply (cl_heap _ _ _ C _ _ d (proj1 I) E)).
      assert (D' : (vdepths l <= f)%nat) by lia. clear E D. clear I. revert cs st C R K AC D'.
      induction IH as [|v l Hv Hl IHl]; intros [|c cs] st C R K AC D; cbn in R; try contradiction; cbn [map_m].
      - eexists; eexists; reflexivity.
      - destruct R as [R1 R2]. destruct K as [K1 K2]. cbn [vdepths] in D.
        assert (IC : inside S st c) by (apply AC; left; reflexivity).
        destruct (Hv f S c st C IC R1 K1 ltac:(lia)) as (c' & st1 & E1). unfold bind at 1. rewrite E1.
        destruct (copy_grown _ _ _ _ _ _ C IC E1) as [G _].
        destruct (IHl cs st1 (closed_grown _ _ _ _ C G)) as (l' & st2 & E2); auto.
        + clear -R2 G. revert cs R2. induction l as [|v l IH]; intros [|c cs] R; cbn in *; auto. destruct R; split; auto. eapply reads_grown; eauto.
        + intros d Hd. apply (inside_grown _ _ _ _ G), AC. right. exact Hd.
        + lia.
        + unfold bind. rewrite E2. eexists; eexists; reflexivity. }
    destruct MM as (l' & st1 & E1).
    unfold get_list, get_storage, bind. rewrite E. cbn [ret]. rewrite E1. destruct (AL (StList l') st1) as (n & st2 & ->). unfold ret. eauto.
  - change (reads (h_heap st) (VMap m) (CMap s)) in R. apply reads_VMap in R. destruct R as (cs & E & R).
    apply copyable_VMap in K. rewrite vdepth_VMap in D.
    assert (MM : exists l' st', map_m (fun kv => let* x := copy f (snd kv) in ret (fst kv, x)) cs st = (Ok l', st')).
    { assert (AC : allc (List.map snd cs) S st) by (intros d; apply (cl_heap _ _ _ C _ _ d (proj1 I) E)).
      assert (D' : (vdepths (List.map snd m) <= f)%nat) by lia. clear E D. clear I. revert cs st C R K AC D'.
      induction IH as [|[kv v] l Hv Hl IHl]; intros [|[kc c] cs] st C R K AC D; cbn in R; try contradiction; cbn [map_m].
      - eexists; eexists; reflexivity.
      - destruct R as (R0 & R1 & R2). destruct K as [K1 K2]. cbn [vdepths List.map snd] in D, Hv.
        assert (IC : inside S st c) by (apply AC; left; reflexivity).
        destruct (Hv f S c st C IC R1 K1 ltac:(lia)) as (c' & st1 & E1). unfold bind at 1 2. cbn [snd fst]. rewrite E1. cbn [ret].
        destruct (copy_grown _ _ _ _ _ _ C IC E1) as [G _].
        destruct (IHl cs st1 (closed_grown _ _ _ _ C G)) as (l' & st2 & E2); auto.
        + clear -R2 G. revert cs R2. induction l as [|v l IH]; intros [|c cs] R; cbn in *; auto. destruct R as (? & ? & ?); repeat split; auto. eapply reads_grown; eauto.
        + intros d Hd. apply (inside_grown _ _ _ _ G), AC. right. exact Hd.
        + lia.
        + unfold bind at 1. rewrite E2. eexists; eexists; reflexivity. }
    destruct MM as (l' & st1 & E1).
    unfold get_map, get_storage, bind at 1 2 3. rewrite E. cbn [ret]. rewrite E1. unfold bind. destruct (AL (StMap l') st1) as (n & st2 & ->). unfold ret. eauto.
  - destruct K as [K1 K2]. unfold get_blob, get_storage, bind at 1 2. rewrite R. cbn [ret]. rewrite blob_copy_ok by auto.
    unfold bind, fail. destruct (AL (StBlob [List.concat b]) st) as (n & st' & ->). unfold ret. eauto.
Qed.

(** ** A variable that holds a string, list or map keeps its storage *)
Definition holder (c : cell) : bool := match c with CStr _ | CList _ | CMap _ => true | _ => false end.

(** Operations that give variable [x] itself a new value. *)
Definition replaces (x : nat) (o : op) : Prop :=
  match o with
  | OAssign d _ => lv_var d = x /\ lv_path d = []
  | OSetPath d p _ => lv_var d = x /\ lv_path d = [] /\ p = []
  | _ => False
  end.

Section Keep.
  Variables (x : nat) (c : cell).
  Hypothesis Hc : holder c = true.
  Definition keep {A} (m : M A) (Q : A -> Prop) : Prop :=
    forall st r st', nth_error (h_vars st) x = Some c -> m st = (r, st') ->
      nth_error (h_vars st') x = Some c /\ forall a, r = Ok a -> Q a.

  Definition tr {A} : A -> Prop := fun _ => True.
  Lemma keep_bind {A B} (m : M A) Q (f : A -> M B) R :
    keep m Q -> (forall a, Q a -> keep (f a) R) -> keep (bind m f) R.
  Proof.
    intros Hm Hf st r st' N E. unfold bind in E. destruct (m st) as [r1 st1] eqn:E1.
    destruct (Hm _ _ _ N E1) as [N1 Q1]. destruct r1 as [a| | | |]; try (injection E as <- <-; split; [auto|discriminate]).
    apply (Hf a (Q1 a eq_refl) st1); auto.
  Qed.
  Lemma keep_weak {A} (m : M A) (Q Q' : A -> Prop) : keep m Q -> (forall a, Q a -> Q' a) -> keep m Q'.
  Proof. intros H I st r st' N E. destruct (H _ _ _ N E). split; auto. Qed.
  Lemma keep_pure {A} (m : M A) : pure_m m -> keep m tr.
  Proof. intros P st r st' N E. specialize (P st). rewrite E in P. cbn in P. subst. split; [auto|intros; exact I]. Qed.
  Lemma keep_ret {A} (a : A) (Q : A -> Prop) : Q a -> keep (ret a) Q.
  Proof. intros H st r st' N E. injection E as <- <-. split; auto. intros b [= <-]. exact H. Qed.
  Lemma keep_fail {A} (r : res A) (Q : A -> Prop) : (forall a, r = Ok a -> Q a) -> keep (fail r) Q.
  Proof. intros H st r' st' N E. injection E as <- <-. auto. Qed.
  Lemma keep_throw {A} e (Q : A -> Prop) : keep (throw e) Q.
  Proof. apply keep_fail. discriminate. Qed.
  Lemma keep_store l d : l <> LVar x -> keep (store l d) tr.
  Proof.
    intros H st r st' N E. unfold store in E. destruct (peek st l); injection E as <- <-; (split; [|intros; exact I]); auto.
    destruct l as [y|s i|s k]; cbn.
    - rewrite nth_lput. destruct (Nat.eqb_spec x y) as [->|]; [contradiction|auto].
    - destruct (nth_error (h_heap st) s) as [[]|]; auto.
    - destruct (nth_error (h_heap st) s) as [[]|]; auto.
  Qed.
  Lemma keep_put s y : keep (put_storage s y) tr.
  Proof. intros st r st' N E. unfold put_storage in E. destruct (nth_error (h_heap st) s); injection E as <- <-; split; auto; intros; exact I. Qed.
  Lemma keep_alloc y : keep (alloc y) tr.
  Proof. intros st r st' N E. unfold alloc in E. injection E as <- <-. split; auto. intros; exact I. Qed.
  (** Looking at what is in a location: in variable [x] it is [c]. *)
  Lemma keep_load {B} l (f : cell -> M B) Q :
    (l = LVar x -> keep (f c) Q) -> (l <> LVar x -> forall d, keep (f d) Q) -> keep (bind (load l) f) Q.
  Proof.
    intros H1 H2 st r st' N E. unfold bind, load in E. destruct (peek st l) as [d|] eqn:P.
    - destruct l as [y|s i|s k]; try (apply (H2 ltac:(discriminate) d st); auto).
      destruct (Nat.eq_dec y x) as [->|Ny].
      + cbn in P. rewrite N in P. injection P as <-. apply (H1 eq_refl st); auto.
      + apply (H2 ltac:(congruence) d st); auto.
    - injection E as <- <-. split; auto. discriminate.
  Qed.
  Definition novar (l : loc) : Prop := match l with LVar _ => False | _ => True end.
  Lemma novar_ne l : novar l -> l <> LVar x.
  Proof. destruct l; cbn; [contradiction|discriminate|discriminate]. Qed.

  Ltac kpure := match goal with |- keep (bind ?m _) _ =>
     eapply keep_bind; [apply (keep_pure m); unfold list_at, throw; pur|intros ? _] end.

  Lemma keep_list_set_index s i d : keep (list_set_index s i d) tr.
  Proof.
    unfold list_set_index. kpure. eapply keep_bind with (Q := tr); [destruct (i <? lsize a); [apply keep_ret; exact I|apply keep_put]|].
    intros _ _. unfold list_at. eapply keep_bind with (Q := novar).
    - kpure. destruct (i <? lsize a0); [apply keep_ret; exact I|apply keep_throw].
    - intros l Hl. apply keep_store, novar_ne, Hl.
  Qed.
  Lemma keep_map_insert s k d : keep (map_insert s k d) tr.
  Proof. unfold map_insert. kpure. destruct (mget k a); [apply keep_ret; exact I|apply keep_put]. Qed.
  Lemma keep_map_set_key s k d : keep (map_set_key s k d) tr.
  Proof. unfold map_set_key. eapply keep_bind; [apply keep_map_insert|]. intros _ _. apply keep_store. discriminate. Qed.

  Ltac hold := match goal with H : holder ?c = true |- _ => destruct c; try discriminate H end.
  Lemma keep_set_elem l e d : keep (set_elem l e d) tr.
  Proof.
    destruct e as [k|i]; cbn [set_elem]; [unfold set_key|unfold set_index]; apply keep_load.
    - intros _. hold; try apply keep_throw. apply keep_map_set_key.
    - intros H c0. destruct c0; try apply keep_throw; [|apply keep_map_set_key].
      eapply keep_bind; [apply keep_alloc|]. intros s _. eapply keep_bind; [apply keep_store, H|]. intros _ _. apply keep_map_set_key.
    - intros _. hold; try apply keep_throw. apply keep_list_set_index.
    - intros H c0. destruct c0; try apply keep_throw; [|apply keep_list_set_index].
      eapply keep_bind; [apply keep_alloc|]. intros s _. eapply keep_bind; [apply keep_store, H|]. intros _ _. apply keep_list_set_index.
  Qed.
  Lemma keep_as_list l : keep (as_list l) tr.
  Proof.
    unfold as_list. apply keep_load.
    - intros _. hold; try apply keep_throw. apply keep_ret; exact I.
    - intros H c0. destruct c0; try apply keep_throw; [|apply keep_ret; exact I].
      eapply keep_bind; [apply keep_alloc|]. intros s _. eapply keep_bind; [apply keep_store, H|]. intros _ _. apply keep_ret; exact I.
  Qed.
  Lemma keep_as_map l : keep (as_map l) tr.
  Proof.
    unfold as_map. apply keep_load.
    - intros _. hold; try apply keep_throw. apply keep_ret; exact I.
    - intros H c0. destruct c0; try apply keep_throw; [|apply keep_ret; exact I].
      eapply keep_bind; [apply keep_alloc|]. intros s _. eapply keep_bind; [apply keep_store, H|]. intros _ _. apply keep_ret; exact I.
  Qed.
  Lemma keep_append l d : keep (append l d) tr.
  Proof. unfold append. eapply keep_bind; [apply keep_as_list|]. intros s _. kpure. apply keep_put. Qed.
  Lemma keep_erase_elem l e : keep (erase_elem l e) tr.
  Proof.
    destruct e as [k|i]; cbn [erase_elem]; [unfold erase_key|unfold erase_index].
    - eapply keep_bind; [apply keep_pure; pur|]. intros d _. destruct d; try apply keep_throw; [apply keep_ret; exact I|].
      kpure. apply keep_put.
    - eapply keep_bind; [apply keep_pure; pur|]. intros d _. destruct d; try apply keep_throw; [apply keep_ret; exact I|].
      kpure. destruct (_ <? _); [|destruct (_ <? _); [apply keep_put|apply keep_ret; exact I]].
      unfold list_at. eapply keep_bind with (Q := novar).
      + kpure. destruct (i <? lsize a0); [apply keep_ret; exact I|apply keep_throw].
      + intros l' Hl. apply keep_store, novar_ne, Hl.
  Qed.

  Definition ref_novar (r : vref) : Prop := match r with RRef l => novar l | RProxy _ p => p <> [] end.
  Definition ref_real (r : vref) : Prop := match r with RRef l => novar l | RProxy _ _ => True end.

  Lemma keep_get_elem l e ch : keep (get_elem l e ch) (fun o => match o with Some l' => novar l' | None => True end).
  Proof.
    destruct e; cbn [get_elem]; [unfold get_key|unfold get_index]; kpure; destruct a; try (destruct ch; [apply keep_throw|apply keep_ret; exact I]).
    - kpure. destruct (mget k a); [apply keep_ret; exact I|]. destruct ch; [apply keep_throw|apply keep_ret; exact I].
    - kpure. destruct (i <? lsize a); [apply keep_ret; exact I|]. destruct ch; [apply keep_throw|apply keep_ret; exact I].
  Qed.

  Lemma keep_list_get_ref l s i d : keep (list_get_ref l s i d) ref_novar.
  Proof.
    unfold list_get_ref. kpure. destruct (i <? lsize a); [apply keep_ret; exact I|]. destruct d; [|apply keep_ret; discriminate].
    eapply keep_bind; [apply keep_put|]. intros _ _. unfold list_at. eapply keep_bind with (Q := novar).
    - kpure. destruct (i <? lsize a0); [apply keep_ret; exact I|apply keep_throw].
    - intros l' Hl. eapply keep_bind; [apply keep_store, novar_ne, Hl|]. intros _ _. apply keep_ret, Hl.
  Qed.
  Lemma keep_map_get_ref l s k d : keep (map_get_ref l s k d) ref_novar.
  Proof.
    unfold map_get_ref. kpure. destruct (mget k a); [apply keep_ret; exact I|]. destruct d; [|apply keep_ret; discriminate].
    eapply keep_bind; [apply keep_map_insert|]. intros _ _. apply keep_ret. exact I.
  Qed.
  Lemma keep_get_ref_elem l e d : keep (get_ref_elem l e d) ref_novar.
  Proof.
    destruct e as [k|i]; cbn [get_ref_elem]; [unfold get_ref_key|unfold get_ref_index]; apply keep_load.
    - intros _. hold; try apply keep_throw. apply keep_map_get_ref.
    - intros H c0. destruct c0; try apply keep_throw; [|apply keep_map_get_ref].
      destruct d; [|apply keep_ret; discriminate].
      eapply keep_bind; [apply keep_alloc|]. intros s _. eapply keep_bind; [apply keep_store, H|]. intros _ _. apply keep_map_get_ref.
    - intros _. hold; try apply keep_throw. apply keep_list_get_ref.
    - intros H c0. destruct c0; try apply keep_throw; [|apply keep_list_get_ref].
      destruct d; [|apply keep_ret; discriminate].
      eapply keep_bind; [apply keep_alloc|]. intros s _. eapply keep_bind; [apply keep_store, H|]. intros _ _. apply keep_list_get_ref.
  Qed.
  Lemma keep_get_path_ref p : p <> [] -> forall l d, keep (get_path_ref p l d) ref_novar.
  Proof.
    induction p as [|e p IH]; intros NE l d; [contradiction|]. cbn [get_path_ref].
    eapply keep_bind; [apply keep_get_elem|]. intros [l'|] Hl.
    - destruct p as [|e' p]; [apply keep_ret, Hl|apply IH; discriminate].
    - destruct d; [|apply keep_ret; discriminate]. destruct p as [|e' p]; [apply keep_get_ref_elem|].
      eapply keep_bind; [apply keep_set_elem|]. intros _ _. eapply keep_bind; [apply keep_get_elem|].
      intros [l'|] Hl'; [apply IH; discriminate|apply keep_fail; discriminate].
  Qed.
  Lemma keep_set_path p : forall l d, (p = [] -> l <> LVar x) -> keep (set_path p l d) tr.
  Proof.
    induction p as [|e p IH]; intros l d H; cbn [set_path]; [apply keep_store; auto|].
    eapply keep_bind; [apply keep_get_elem|]. intros [l'|] Hl.
    - apply IH. intros _. apply novar_ne, Hl.
    - destruct p as [|e' p]; [apply keep_set_elem|].
      eapply keep_bind; [apply keep_set_elem|]. intros _ _. eapply keep_bind; [apply keep_get_elem|].
      intros [l'|] Hl'; [apply IH; discriminate|apply keep_fail; discriminate].
  Qed.
  Lemma keep_erase_path p : forall l b, keep (erase_path p l b) tr.
  Proof.
    induction p as [|e p IH]; intros l b; cbn [erase_path]; [apply keep_ret; exact I|].
    destruct p as [|e' p]; [apply keep_erase_elem|].
    eapply keep_bind; [apply keep_get_elem|]. intros [l'|] Hl; [|apply keep_ret; exact I].
    eapply keep_bind; [apply IH|]. intros _ _. destruct b; [|apply keep_ret; exact I].
    eapply keep_bind; [apply keep_pure, pure_is_empty|]. intros [|] _; [apply keep_erase_elem|apply keep_ret; exact I].
  Qed.
  Lemma keep_clear l : keep (clear l) tr.
  Proof.
    unfold clear. apply keep_load.
    - intros _. hold; kpure; apply keep_put.
    - intros H d. destruct d; try (apply keep_store; exact H); try (apply keep_ret; exact I); kpure; apply keep_put.
  Qed.
  Lemma keep_num_update l f : (forall v, type_of v = StringType \/ type_of v = ListType \/ type_of v = MapType -> forall w, f v <> Ok w) ->
    keep (num_update l f) tr.
  Proof.
    intros Hf. unfold num_update. apply keep_load.
    - intros _. eapply keep_bind with (Q := fun _ => False).
      + apply keep_fail. intros a E. apply (Hf (num_view c)) in E; auto. hold; cbn; auto.
      + intros a [].
    - intros H d. eapply keep_bind with (Q := tr); [apply keep_fail; intros; exact I|]. intros a _. apply keep_store, H.
  Qed.
  Lemma keep_eval_lval d : keep (eval_lval d) (fun r => match r with RRef l => l = LVar x -> d = LV x [] | RProxy _ p => p <> [] end).
  Proof.
    destruct d as [y p]. unfold eval_lval, at_path. cbn [lv_var lv_path]. destruct p as [|e p].
    - apply keep_ret. intros [= ->]. reflexivity.
    - cbn [resolve_check]. eapply keep_bind with (Q := fun o => o = Some (LVar y)); [apply keep_ret; reflexivity|]. intros o ->.
      eapply keep_weak; [apply keep_get_path_ref; discriminate|]. intros [l|l q]; cbn; auto. destruct l; [contradiction|discriminate|discriminate].
  Qed.
  Lemma keep_get_path p : forall l ch, p <> [] -> keep (get_path p l ch) (fun o => match o with Some l' => novar l' | None => True end).
  Proof.
    induction p as [|e p IH]; intros l ch NE; [contradiction|]. cbn [get_path].
    eapply keep_bind; [apply keep_get_elem|]. intros [l'|] Hl.
    - destruct p; [apply keep_ret; exact Hl|apply IH; discriminate].
    - destruct ch; [destruct e; apply keep_throw|apply keep_ret; exact I].
  Qed.
  Lemma keep_target_create d : keep (target_create d) (fun l => l = LVar x -> d = LV x []).
  Proof.
    unfold target_create. eapply keep_bind; [apply keep_eval_lval|]. intros [l|l p] H; cbn [resolve_create]; [apply keep_ret, H|].
    eapply keep_bind; [apply keep_get_path_ref, H|]. intros [l'|] Hl; [|apply keep_fail; discriminate].
    apply keep_ret. intros ->. contradiction.
  Qed.
  Lemma keep_target d : keep (target d) (fun l => l = LVar x -> d = LV x []).
  Proof.
    unfold target. eapply keep_bind; [apply keep_eval_lval|]. intros [l|l p] H; cbn [resolve_throw]; [apply keep_ret, H|].
    eapply keep_bind; [apply keep_get_path, H|]. intros [l'|] Hl; [|apply keep_fail; discriminate].
    apply keep_ret. intros ->. contradiction.
  Qed.
  Lemma keep_map_m {A B} (f : A -> M B) l : (forall a, keep (f a) tr) -> keep (map_m f l) tr.
  Proof.
    intros H. induction l as [|a l IH]; cbn [map_m]; [apply keep_ret; exact I|].
    eapply keep_bind; [apply H|]. intros b _. eapply keep_bind; [apply IH|]. intros r _. apply keep_ret; exact I.
  Qed.
  Lemma keep_copy f : forall d, keep (copy f d) tr.
  Proof.
    induction f as [|f IH]; intros d; cbn [copy]; [apply keep_fail; discriminate|].
    destruct d as [| | | | |s|s|s|[s|]]; try (apply keep_ret; exact I); kpure.
    - eapply keep_bind; [apply keep_alloc|]. intros n _. apply keep_ret; exact I.
    - eapply keep_bind; [apply keep_map_m, IH|]. intros l _. eapply keep_bind; [apply keep_alloc|]. intros n _. apply keep_ret; exact I.
    - eapply keep_bind; [apply keep_map_m; intros kv; eapply keep_bind; [apply IH|]; intros y _; apply keep_ret; exact I|].
      intros l _. eapply keep_bind; [apply keep_alloc|]. intros n _. apply keep_ret; exact I.
    - eapply keep_bind; [apply (keep_fail _ tr); intros; exact I|]. intros l _. eapply keep_bind; [apply keep_alloc|]. intros n _. apply keep_ret; exact I.
  Qed.
  Lemma keep_eval_rval r : keep (eval_rval r) tr.
  Proof.
    destruct r; cbn [eval_rval]; try (apply keep_ret; exact I);
      try (eapply keep_bind; [apply keep_alloc|]; intros n _; apply keep_ret; exact I).
    - apply keep_pure, pure_read_lval.
    - eapply keep_bind; [apply keep_pure, pure_read_lval|]. intros d _. apply keep_copy.
  Qed.
  Lemma keep_merge_keys ks : forall l s, keep (merge_keys l s ks) tr.
  Proof.
    induction ks as [|k ks IH]; intros l s; cbn [merge_keys]; [apply keep_ret; exact I|].
    eapply keep_bind; [apply keep_pure; pur|]. intros d _. eapply keep_bind; [apply (keep_set_elem l (PKey k))|]. intros _ _. apply IH.
  Qed.
  Lemma keep_resolve_create r : (match r with RRef _ => True | RProxy _ p => p <> [] end) -> keep (resolve_create r) tr.
  Proof.
    destruct r as [l|l p]; cbn [resolve_create]; intros H; [apply keep_ret; exact I|].
    eapply keep_bind; [apply keep_get_path_ref, H|]. intros [l'|] Hl; [|apply keep_fail; discriminate]. apply keep_ret; exact I.
  Qed.
  Lemma keep_merge r d : (match r with RRef _ => True | RProxy _ p => p <> [] end) -> keep (merge r d) tr.
  Proof.
    intros H. unfold merge. destruct d; try apply keep_throw; [apply keep_ret; exact I|]. kpure.
    destruct (mkeys a) as [|k ks]; [apply keep_ret; exact I|]. kpure.
    eapply keep_bind; [apply keep_resolve_create, H|]. intros l _. eapply keep_bind; [apply (keep_set_elem l (PKey k))|]. intros _ _.
    kpure. apply keep_merge_keys.
  Qed.

  Lemma arith_not_num o v w : type_of v = StringType \/ type_of v = ListType \/ type_of v = MapType -> forall u, v_arith o v w <> Ok u.
  Proof. intros [H|[H|H]] u; unfold v_arith; rewrite H; discriminate. Qed.

  Lemma keep_exec o : ~ replaces x o -> keep (exec o) tr.
  Proof.
    intros NR. destruct o; cbn [exec replaces] in *.
    - eapply keep_bind; [apply keep_eval_rval|]. intros e _. eapply keep_bind; [apply keep_target_create|]. intros l Hl.
      apply keep_store. intros ->. specialize (Hl eq_refl). subst d. apply NR. auto.
    - eapply keep_bind; [apply keep_target|]. intros l Hl. apply keep_clear.
    - eapply keep_bind; [apply keep_eval_rval|]. intros e0 _. eapply keep_bind; [apply keep_target_create|]. intros l Hl. apply keep_set_elem.
    - eapply keep_bind; [apply keep_eval_rval|]. intros e0 _. eapply keep_bind; [apply keep_target_create|]. intros l Hl. apply keep_append.
    - eapply keep_bind; [apply keep_target|]. intros l Hl. apply keep_erase_elem.
    - eapply keep_bind; [apply keep_eval_rval|]. intros e0 _. eapply keep_bind; [apply keep_target_create|]. intros l Hl.
      apply keep_set_path. intros -> ->. specialize (Hl eq_refl). subst d. apply NR. auto.
    - unfold target_erase. eapply keep_bind with (Q := tr).
      + eapply keep_bind; [apply keep_eval_lval|]. intros r _. destruct p as [|e [|e' p]]; [apply keep_ret; exact I| |].
        * eapply keep_bind; [apply keep_pure, pure_resolve_throw|]. intros l _. apply keep_ret; exact I.
        * apply keep_pure, pure_resolve_check.
      + intros [l|] _; [apply keep_erase_path|apply keep_ret; exact I].
    - eapply keep_bind; [apply keep_eval_rval|]. intros e0 _. eapply keep_bind; [apply keep_eval_lval|]. intros t Ht.
      apply keep_merge. destruct t; auto.
    - eapply keep_bind; [apply keep_eval_rval|]. intros e0 _. eapply keep_bind; [apply keep_target_create|]. intros l Hl.
      eapply keep_bind; [apply keep_get_ref_elem|]. intros u _. apply keep_ret; exact I.
    - eapply keep_bind; [apply keep_eval_rval|]. intros e0 _. destruct p as [|e p].
      + eapply keep_bind; [apply keep_eval_lval|]. intros l Hl. apply keep_ret; exact I.
      + eapply keep_bind; [apply keep_target_create|]. intros l Hl. eapply keep_bind; [apply keep_get_path_ref; discriminate|].
        intros u _. apply keep_ret; exact I.
    - eapply keep_bind; [apply keep_target_create|]. intros l Hl. eapply keep_bind; [apply keep_as_list|]. intros u _. apply keep_ret; exact I.
    - eapply keep_bind; [apply keep_target_create|]. intros l Hl. eapply keep_bind; [apply keep_as_map|]. intros u _. apply keep_ret; exact I.
    - eapply keep_bind; [apply keep_target|]. intros l Hl. apply keep_num_update. intros v [H|[H|H]] w; destruct v; discriminate.
    - eapply keep_bind; [apply keep_target|]. intros l Hl. apply keep_num_update. intros v [H|[H|H]] w; destruct v; discriminate.
    - eapply keep_bind; [apply keep_eval_rval|]. intros e0 _. eapply keep_bind; [apply keep_target|]. intros l Hl.
      apply keep_num_update. intros v H w. apply arith_not_num, H.
  Qed.

  Lemma keep_execs os : Forall (fun o => ~ replaces x o) os -> forall st b st',
    nth_error (h_vars st) x = Some c -> execs os st = (b, st') -> nth_error (h_vars st') x = Some c.
  Proof.
    induction os as [|o os IH]; intros F st b st' N E; cbn [execs] in E; [injection E as <- <-; exact N|].
    inversion F as [|? ? Ho Hos]; subst. destruct (exec o st) as [r st1] eqn:E1.
    destruct (keep_exec o Ho _ _ _ N E1) as [N1 _].
    destruct r; try (injection E as <- <-; exact N1); eapply IH; eauto.
  Qed.
End Keep.
