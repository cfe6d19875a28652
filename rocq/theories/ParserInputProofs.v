From Verif Require Import Base ParserInput.
Open Scope N_scope.

Lemma take_app_drop {A} n (l : list A) : take n l ++ drop n l = l.
Proof. apply firstn_skipn. Qed.
Lemma llen_app {A} (a b : list A) : llen (a ++ b) = llen a + llen b.
Proof. unfold llen. rewrite app_length. lia. Qed.
Lemma llen_take {A} n (l : list A) : llen (take n l) = N.min n (llen l).
Proof. unfold llen, take. rewrite firstn_length. lia. Qed.
Lemma llen_drop {A} n (l : list A) : llen (drop n l) = llen l - n.
Proof. unfold llen, drop. rewrite skipn_length. lia. Qed.
Lemma llen_repeat {A} (x : A) n : llen (repeat x n) = N.of_nat n.
Proof. unfold llen. rewrite repeat_length. reflexivity. Qed.
Lemma drop_drop {A} m n (l : list A) : drop n (drop m l) = drop (m + n) l.
Proof.
  unfold drop. rewrite N2Nat.inj_add. generalize (N.to_nat m) (N.to_nat n). clear.
  intros m. revert l. induction m as [|m IH]; intros l n; [reflexivity|].
  destruct l; [cbn; rewrite skipn_nil; reflexivity|apply IH].
Qed.
Lemma take_all {A} n (l : list A) : llen l <= n -> take n l = l.
Proof. unfold llen, take. intros. apply firstn_all2. lia. Qed.
Lemma drop_all {A} n (l : list A) : llen l <= n -> drop n l = [].
Proof. unfold llen, drop. intros. apply skipn_all2. lia. Qed.
Lemma take_0 {A} (l : list A) : take 0 l = [].
Proof. reflexivity. Qed.
Lemma drop_0 {A} (l : list A) : drop 0 l = l.
Proof. reflexivity. Qed.
Lemma llen_nil {A} : llen (@nil A) = 0.
Proof. reflexivity. Qed.
Lemma llen_0 {A} (l : list A) : llen l = 0 -> l = [].
Proof. unfold llen. destruct l; [reflexivity|cbn; lia]. Qed.
Lemma take_app {A} n (a b : list A) : take n (a ++ b) = take n a ++ take (n - llen a) b.
Proof. unfold take, llen. rewrite firstn_app. repeat f_equal. lia. Qed.
Lemma drop_app {A} n (a b : list A) : drop n (a ++ b) = drop n a ++ drop (n - llen a) b.
Proof. unfold drop, llen. rewrite skipn_app. repeat f_equal. lia. Qed.
Lemma take_take {A} m n (l : list A) : take m (take n l) = take (N.min m n) l.
Proof. unfold take. rewrite firstn_firstn. f_equal. lia. Qed.
Lemma drop_take {A} m n (l : list A) : drop m (take n l) = take (n - m) (drop m l).
Proof. unfold take, drop. rewrite skipn_firstn_comm. f_equal. lia. Qed.

(** The bytes currently held. *)
Definition view (s : sinput) : bytes := take (si_num s) (drop (si_off s) (si_buf s)).

(** Everything still to be delivered. *)
Definition pending (s : sinput) : bytes := view s ++ src_data (si_src s).

Definition wf (s : sinput) : Prop :=
  si_off s + si_num s <= llen (si_buf s) /\ 0 < llen (si_buf s) /\
  (si_num s = 0 -> si_off s = 0).

Lemma view_len s : wf s -> llen (view s) = si_num s.
Proof. intros (H & _). unfold view. rewrite llen_take, llen_drop. lia. Qed.

Lemma src_read_spec s n got s' : src_read s n = (got, s') ->
  src_data s = got ++ src_data s' /\ llen got <= n.
Proof.
  unfold src_read. intros H. injection H as <- <-. cbn [src_data]. rewrite take_app_drop.
  split; [reflexivity|]. rewrite llen_take. destruct (src_limits s) as [|[m|] ?]; lia.
Qed.

(** Full reads: no limits. *)
Definition full_reads (s : source) : Prop := Forall (fun o => o = None) (src_limits s).

Lemma src_read_full s n got s' : full_reads s -> src_read s n = (got, s') ->
  full_reads s' /\ (llen got < n -> src_data s' = []).
Proof.
  unfold src_read, full_reads. intros F H. injection H as <- <-. cbn [src_data src_limits]. split.
  - destruct (src_limits s); [constructor|inversion F; assumption].
  - assert (L : match src_limits s with Some m :: _ => N.min m n | _ => n end = n).
    { destruct (src_limits s) as [|[m|] ?]; [reflexivity| |reflexivity]. inversion F; discriminate. }
    rewrite L, llen_take. intros. apply drop_all. lia.
Qed.

Lemma buf_store_len buf pos got : pos + llen got <= llen buf -> llen (buf_store buf pos got) = llen buf.
Proof. intros. unfold buf_store. rewrite !llen_app, llen_take, llen_drop. lia. Qed.

Lemma buf_store_view buf off num got : off + num + llen got <= llen buf ->
  take (num + llen got) (drop off (buf_store buf (num + off) got)) = take num (drop off buf) ++ got.
Proof.
  intros H. unfold buf_store.
  rewrite drop_app, llen_take. rewrite N.min_l by lia.
  replace (off - (num + off)) with 0 by lia. rewrite drop_0.
  rewrite drop_take. replace (num + off - off) with num by lia.
  rewrite take_app, llen_take, llen_drop. rewrite N.min_l by lia.
  rewrite (take_all (num + llen got) (take num _)) by (rewrite llen_take, llen_drop; lia).
  f_equal. replace (num + llen got - num) with (llen got) by lia.
  rewrite take_app, N.sub_diag, take_0, app_nil_r. apply take_all. lia.
Qed.

(** The loop needs at most two rounds. *)
Lemma fill_loop_spec s len : wf s -> len + si_off s <= llen (si_buf s) ->
  forall f, (3 <= f)%nat ->
  exists s', fill_loop f s len = Ok s' /\ wf s' /\ pending s' = pending s /\
             llen (si_buf s') = llen (si_buf s) /\
             (full_reads (si_src s) -> full_reads (si_src s')) /\
             (si_eof s' = true \/ (len <= si_num s' /\ 0 < si_num s')) /\
             (full_reads (si_src s) -> (si_eof s = true -> src_data (si_src s) = []) ->
              si_eof s' = true -> src_data (si_src s') = []).
Proof.
  intros W L f Hf.
  assert (Step : forall s, wf s -> len + si_off s <= llen (si_buf s) -> forall f,
    (negb (si_eof s) && ((si_num s <? len) || (si_num s =? 0)))%bool = true ->
    exists s1, fill_loop (S f) s len = fill_loop f s1 len /\ wf s1 /\ pending s1 = pending s /\
      llen (si_buf s1) = llen (si_buf s) /\ si_off s1 = si_off s /\
      (full_reads (si_src s) -> full_reads (si_src s1)) /\
      (si_eof s1 = true \/ (len <= si_num s1 /\ 0 < si_num s1)) /\
      (full_reads (si_src s) -> si_eof s1 = true -> src_data (si_src s1) = [])).
  { clear. intros s (W1 & W2 & W3) L f C. cbn [fill_loop]. rewrite C.
    set (to_read := llen (si_buf s) - si_num s - si_off s).
    assert (T : 0 < to_read).
    { unfold to_read. apply andb_true_iff in C as [_ C]. apply orb_true_iff in C as [C|C]; [lia|].
      assert (si_num s = 0) by lia. specialize (W3 H). lia. }
    destruct (llen (si_buf s) <? si_num s + si_off s) eqn:B; [lia|].
    destruct (src_read (si_src s) to_read) as [got src'] eqn:R.
    destruct (src_read_spec _ _ _ _ R) as [D G].
    eexists. split; [reflexivity|]. cbn [si_buf si_num si_off si_eof si_src].
    assert (HL : llen (buf_store (si_buf s) (si_num s + si_off s) got) = llen (si_buf s)).
    { apply buf_store_len. unfold to_read in G. lia. }
    split; [|split; [|split; [|split; [|split; [|split]]]]].
    - unfold wf; cbn [si_buf si_num si_off]. rewrite HL. unfold to_read in G. repeat split; [lia|lia|].
      intros E. apply W3. lia.
    - unfold pending, view; cbn [si_buf si_num si_off si_src].
      rewrite buf_store_view by (unfold to_read in G; lia). rewrite D, app_assoc. reflexivity.
    - exact HL.
    - reflexivity.
    - intros F. apply (src_read_full _ _ _ _ F R).
    - destruct (llen got <? to_read) eqn:E; [left; reflexivity|right].
      unfold to_read in *. split; lia.
    - intros F E. apply (src_read_full _ _ _ _ F R). lia. }
  destruct (negb (si_eof s) && ((si_num s <? len) || (si_num s =? 0)))%bool eqn:C.
  - destruct f as [|f]; [lia|].
    destruct (Step s W L f C) as (s1 & E1 & W1 & P1 & B1 & O1 & F1 & D1 & X1). rewrite E1.
    destruct f as [|f]; [lia|]. cbn [fill_loop].
    assert (C1 : (negb (si_eof s1) && ((si_num s1 <? len) || (si_num s1 =? 0)))%bool = false).
    { destruct D1 as [->|[D1 D2]]; [reflexivity|]. destruct (si_eof s1); [reflexivity|]. cbn. lia. }
    rewrite C1. exists s1. repeat split; auto; apply W1.
  - destruct f as [|f]; [lia|]. cbn [fill_loop]. rewrite C. exists s. repeat split; auto; try apply W.
    destruct (si_eof s) eqn:E; [left; reflexivity|right]. cbn in C. lia.
Qed.

Lemma make_room_spec s len : wf s -> si_eof s = false -> ~ (len <= si_num s /\ 0 < si_num s) ->
  len + si_off s < 2^32 ->
  exists s', make_room s len = Ok s' /\ wf s' /\ pending s' = pending s /\ view s' = view s /\
             si_num s' = si_num s /\ si_eof s' = false /\ si_src s' = si_src s /\
             len + si_off s' <= llen (si_buf s') /\
             (llen (si_buf s') <= N.max len (llen (si_buf s))).
Proof.
  intros (W1 & W2 & W3) E NR L. unfold make_room.
  assert (Wr : wrap32 (len + si_off s) = len + si_off s) by (unfold wrap32; apply N.mod_small; lia).
  rewrite Wr. destruct (llen (si_buf s) <? len + si_off s) eqn:C.
  - destruct (llen (si_buf s) <? si_off s + si_num s) eqn:C1; [lia|].
    set (v := take (si_num s) (drop (si_off s) (si_buf s))).
    assert (Hv : llen v = si_num s) by (unfold v; rewrite llen_take, llen_drop; lia).
    assert (Vw : forall buf, si_num s <= llen buf -> take (si_num s) (drop 0 (buf_store buf 0 v)) = v).
    { intros buf Hb. rewrite drop_0. unfold buf_store. rewrite take_0. cbn [app].
      rewrite take_app, Hv, N.sub_diag, take_0, app_nil_r. apply take_all. lia. }
    destruct (llen (si_buf s) <? len) eqn:C2.
    + destruct (len <? si_num s) eqn:C3; [lia|].
      assert (HR : llen (repeat (bchr 0) (N.to_nat len)) = len) by (rewrite llen_repeat; lia).
      assert (HB : llen (buf_store (repeat (bchr 0) (N.to_nat len)) 0 v) = len)
        by (rewrite buf_store_len; rewrite HR; lia).
      eexists. split; [reflexivity|]. unfold wf, pending, view; cbn [si_buf si_num si_off si_eof si_src].
      rewrite HB, Vw by (rewrite HR; lia). fold v. repeat split; lia || auto.
    + assert (HB : llen (buf_store (si_buf s) 0 v) = llen (si_buf s)) by (rewrite buf_store_len; lia).
      eexists. split; [reflexivity|]. unfold wf, pending, view; cbn [si_buf si_num si_off si_eof si_src].
      rewrite HB, Vw by lia. fold v. repeat split; lia || auto.
  - exists s. unfold wf. repeat split; lia || auto.
Qed.

(** The bound on requests: all sizes below 2^31. *)
Definition small (s : sinput) : Prop := llen (si_buf s) <= 2^31.

Lemma getptr_spec s len f : wf s -> small s -> len <= 2^31 -> (3 <= f)%nat ->
  exists r s' v, si_getptr f s len = Ok (r, s') /\ si_view s' r = Ok v /\
    wf s' /\ small s' /\ pending s' = pending s /\
    (full_reads (si_src s) -> full_reads (si_src s')) /\
    snd r = si_num s' /\
    (v = None -> si_num s' = 0 /\ si_eof s' = true) /\
    (forall b, v = Some b -> b = view s' /\ b <> []) /\
    (si_eof s' = true \/ (len <= si_num s' /\ 0 < si_num s')) /\
    (full_reads (si_src s) -> (si_eof s = true -> src_data (si_src s) = []) ->
       si_eof s' = true -> src_data (si_src s') = []).
Proof.
  intros W Sm Hl Hf. unfold si_getptr.
  assert (V : forall s', wf s' -> si_view s' (Some (si_off s'), si_num s') = Ok (Some (view s'))).
  { intros s' (W1 & _). unfold si_view. cbn [fst snd].
    destruct (llen (si_buf s') <? si_off s' + si_num s') eqn:E; [lia|reflexivity]. }
  assert (NE : forall s', wf s' -> 0 < si_num s' -> view s' <> []).
  { intros s' W' H E. pose proof (view_len s' W') as L. rewrite E in L. cbn in L. lia. }
  destruct (si_eof s) eqn:Ee.
  - destruct (si_num s =? 0) eqn:E0.
    + exists (None, si_num s), s, None. split; [reflexivity|]. split; [reflexivity|].
      repeat split; auto; try apply W; try lia; try discriminate; auto.
    + exists (Some (si_off s), si_num s), s, (Some (view s)). split; [reflexivity|].
      split; [apply V, W|]. repeat split; auto; try apply W; try discriminate;
        try (injection H as <-; first [reflexivity | apply NE; [exact W|lia]]).
  - destruct ((len <=? si_num s) && (0 <? si_num s))%bool eqn:E1.
    + exists (Some (si_off s), si_num s), s, (Some (view s)). split; [reflexivity|].
      split; [apply V, W|]. repeat split; auto; try apply W; try discriminate; try lia; try congruence;
        try (injection H as <-; first [reflexivity | apply NE; [exact W|lia]]).
    + assert (HO : si_off s <= 2^31) by (destruct W as (W1 & _); unfold small in Sm; lia).
      assert (HW : len + si_off s < 2^32).
      { destruct W as (W1 & W2 & W3). unfold small in Sm.
        destruct (N.eq_dec (si_num s) 0) as [Z|Z]; [specialize (W3 Z)|]; lia. }
      destruct (make_room_spec s len W Ee ltac:(lia) HW)
        as (s1 & M1 & W1 & P1 & V1 & N1 & E2 & S1 & L1 & B1).
      rewrite M1. cbn [rbind].
      destruct (fill_loop_spec s1 len W1 L1 f Hf) as (s2 & M2 & W2 & P2 & B2 & F2 & D2 & X2).
      rewrite M2. cbn [rbind].
      assert (Sm2 : small s2) by (unfold small in *; lia).
      destruct ((si_num s2 =? 0) && si_eof s2)%bool eqn:E3.
      * exists (None, si_num s2), s2, None. split; [reflexivity|]. split; [reflexivity|].
        rewrite S1, E2 in *.
        repeat split; auto; try apply W2; try congruence; try lia; try discriminate.
      * exists (Some (si_off s2), si_num s2), s2, (Some (view s2)). split; [reflexivity|].
        split; [apply V, W2|]. rewrite S1, E2 in *.
        repeat split; auto; try apply W2; try congruence; try discriminate.
        injection H as <-. apply NE; [exact W2|].
        destruct D2 as [D2|D2]; [|lia]. rewrite D2 in E3. lia.
Qed.
