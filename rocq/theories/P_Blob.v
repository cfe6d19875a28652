(** Property C19: blob comparison is byte comparison. *)
From Verif Require Import Base Blob.
Open Scope N_scope.

(** ** Specification *)

(** Byte strings in lexicographic order: the first differing byte decides. *)
Definition first_difference (a b : bytes) (x y : ascii) : Prop :=
  exists p ra rb, a = p ++ x :: ra /\ b = p ++ y :: rb /\ x <> y.
Definition is_prefix (a b : bytes) : Prop := exists r, b = a ++ r.

(** ** Proofs *)

Definition rest (a : blob) (i ao : nat) : bytes :=
  match nth_error a i with
  | None => []
  | Some x => skipn ao x ++ List.concat (skipn (S i) a)
  end.

Definition pos_ok (a : blob) (i ao : nat) : Prop :=
  match nth_error a i with None => True | Some x => (ao = 0 \/ ao < List.length x)%nat end.

Lemma skipn_nth {A} (l : list A) n x : nth_error l n = Some x -> skipn n l = x :: skipn (S n) l.
Proof.
  revert n. induction l as [|y l IH]; intros [|n] H; cbn in *; try discriminate.
  - injection H as ->. reflexivity.
  - apply IH, H.
Qed.

Lemma skipn_skipn_add {A} (l : list A) : forall m n, skipn n (skipn m l) = skipn (m + n) l.
Proof.
  induction l as [|x l IH]; intros m n; [rewrite !skipn_nil; reflexivity|].
  destruct m as [|m]; [reflexivity|]. apply IH.
Qed.

Lemma rest_next a i x : nth_error a i = Some x -> rest a (S i) 0 = List.concat (skipn (S i) a).
Proof.
  intros H. unfold rest. destruct (nth_error a (S i)) as [y|] eqn:E.
  - rewrite (skipn_nth a (S i) y E). reflexivity.
  - apply nth_error_None in E. rewrite skipn_all2 by exact E. reflexivity.
Qed.

Lemma advance a i ao x len : nth_error a i = Some x -> pos_ok a i ao ->
  (len <= List.length x - ao)%nat ->
  let '(i', ao') := if Nat.leb (List.length x) (ao + len) then (S i, O) else (i, (ao + len)%nat) in
  rest a i ao = firstn len (skipn ao x) ++ rest a i' ao' /\ pos_ok a i' ao'.
Proof.
  intros H P L. unfold pos_ok in P. rewrite H in P.
  destruct (Nat.leb (List.length x) (ao + len)) eqn:E.
  - apply Nat.leb_le in E. split.
    + rewrite (rest_next a i x H). unfold rest. rewrite H. rewrite firstn_all2; [reflexivity|].
      rewrite skipn_length. lia.
    + unfold pos_ok. destruct (nth_error a (S i)); [left; reflexivity|exact I].
  - apply Nat.leb_gt in E. split.
    + unfold rest. rewrite H. rewrite app_assoc. f_equal.
      rewrite <- (firstn_skipn len (skipn ao x)) at 1. f_equal.
      apply skipn_skipn_add.
    + unfold pos_ok. rewrite H. right. lia.
Qed.

Lemma memcmp_split la : forall a lb b, List.length la = List.length lb ->
  memcmp (la ++ a) (lb ++ b) = if (memcmp la lb =? 0)%Z then memcmp a b else memcmp la lb.
Proof.
  induction la as [|x la IH]; intros a [|y lb] b H; try discriminate; [reflexivity|].
  cbn [app memcmp]. destruct (N.compare (bval x) (bval y)); [|reflexivity|reflexivity].
  apply IH. cbn in H. lia.
Qed.

Lemma cmp_loop_spec a b : forall fuel i j ao bo,
  pos_ok a i ao -> pos_ok b j bo ->
  ((List.length a - i) + (List.length b - j) < fuel)%nat ->
  cmp_loop fuel a b i j ao bo = Ok (memcmp (rest a i ao) (rest b j bo)).
Proof.
  induction fuel as [|f IH]; intros i j ao bo Pa Pb L; [lia|]. cbn [cmp_loop].
  destruct (nth_error a i) as [x|] eqn:Ea.
  2:{ unfold rest. rewrite Ea. cbn. reflexivity. }
  destruct (nth_error b j) as [y|] eqn:Eb.
  2:{ unfold rest. rewrite Ea, Eb. destruct (skipn ao x ++ _); reflexivity. }
  set (len := Nat.min (List.length x - ao) (List.length y - bo)).
  assert (Li : (i < List.length a)%nat) by (apply nth_error_Some; congruence).
  assert (Lj : (j < List.length b)%nat) by (apply nth_error_Some; congruence).
  pose proof (advance a i ao x len Ea Pa ltac:(unfold len; lia)) as A1.
  pose proof (advance b j bo y len Eb Pb ltac:(unfold len; lia)) as A2.
  assert (Prog : (Nat.leb (List.length x) (ao + len) || Nat.leb (List.length y) (bo + len) = true)%bool).
  { unfold pos_ok in Pa, Pb. rewrite Ea in Pa. rewrite Eb in Pb. apply orb_true_iff. rewrite !Nat.leb_le.
    unfold len. lia. }
  destruct (if Nat.leb (List.length x) (ao + len) then (S i, O) else (i, (ao + len)%nat)) as [i' ao'] eqn:Ei.
  destruct (if Nat.leb (List.length y) (bo + len) then (S j, O) else (j, (bo + len)%nat)) as [j' bo'] eqn:Ej.
  destruct A1 as [R1 P1], A2 as [R2 P2].
  assert (HL : List.length (firstn len (skipn ao x)) = List.length (firstn len (skipn bo y))).
  { rewrite !firstn_length, !skipn_length. unfold len. lia. }
  rewrite R1, R2, memcmp_split by exact HL.
  destruct (memcmp (firstn len (skipn ao x)) (firstn len (skipn bo y)) =? 0)%Z eqn:Z; cbn [negb].
  - apply IH; [exact P1|exact P2|].
    destruct (Nat.leb (List.length x) (ao + len)); destruct (Nat.leb (List.length y) (bo + len));
      injection Ei as <- <-; injection Ej as <- <-; cbn in Prog; try discriminate; lia.
  - reflexivity.
Qed.

Lemma rest_start a : rest a 0 0 = List.concat a.
Proof. destruct a; reflexivity. Qed.

Lemma blob_compare_memcmp a b : blob_compare a b = Ok (memcmp (List.concat a) (List.concat b)).
Proof.
  unfold blob_compare. rewrite cmp_loop_spec.
  - rewrite !rest_start. reflexivity.
  - unfold pos_ok. destruct (nth_error a 0); auto.
  - unfold pos_ok. destruct (nth_error b 0); auto.
  - lia.
Qed.

Lemma memcmp_zero a : forall b, memcmp a b = 0%Z <-> is_prefix a b \/ is_prefix b a.
Proof.
  induction a as [|x a IH]; intros b.
  - cbn. split; [|reflexivity]. intros _. left. exists b. reflexivity.
  - destruct b as [|y b].
    + cbn. split; [|reflexivity]. intros _. right. exists (x :: a). reflexivity.
    + cbn [memcmp]. destruct (N.compare (bval x) (bval y)) eqn:E.
      * apply N.compare_eq in E. apply bval_inj in E. subst y. rewrite IH.
        split; (intros [[r H]|[r H]]; [left|right]; exists r); cbn in *; congruence.
      * split; [discriminate|]. intros [[r H]|[r H]]; cbn in H; injection H as -> _; rewrite N.compare_refl in E; discriminate.
      * split; [discriminate|]. intros [[r H]|[r H]]; cbn in H; injection H as -> _; rewrite N.compare_refl in E; discriminate.
Qed.

Lemma memcmp_neg a : forall b, (memcmp a b < 0)%Z <-> exists x y, first_difference a b x y /\ bval x < bval y.
Proof.
  induction a as [|x a IH]; intros b.
  - cbn. split; [lia|]. intros (u & v & (p & ra & rb & H & _) & _). destruct p; discriminate.
  - destruct b as [|y b].
    + cbn. split; [lia|]. intros (u & v & (p & ra & rb & _ & H & _) & _). destruct p; discriminate.
    + cbn [memcmp]. destruct (N.compare (bval x) (bval y)) eqn:E.
      * apply N.compare_eq in E. apply bval_inj in E. subst y. rewrite IH. split.
        -- intros (u & v & (p & ra & rb & -> & -> & D) & L). exists u, v. split; [|exact L].
           exists (x :: p), ra, rb. auto.
        -- intros (u & v & (p & ra & rb & E1 & E2 & D) & L). exists u, v. split; [|exact L].
           destruct p as [|p0 p]; cbn in E1, E2; [congruence|].
           injection E1 as <- ->. injection E2 as ->. exists p, ra, rb. auto.
      * apply N.compare_lt_iff in E. split; [|intros _; reflexivity]. intros _. exists x, y. split; [|exact E].
        exists [], a, b. repeat split. intros ->. apply N.lt_irrefl in E. exact E.
      * apply N.compare_gt_iff in E. split; [discriminate|].
        intros (u & v & (p & ra & rb & E1 & E2 & D) & L).
        destruct p as [|p0 p]; cbn in E1, E2; [injection E1 as -> _; injection E2 as -> _; lia|].
        injection E1 as -> _. injection E2 as -> _. lia.
Qed.

Lemma memcmp_antisym a : forall b, memcmp b a = (- memcmp a b)%Z.
Proof.
  induction a as [|x a IH]; intros [|y b]; cbn; try reflexivity.
  rewrite N.compare_antisym. destruct (N.compare (bval x) (bval y)); cbn; [apply IH|reflexivity|reflexivity].
Qed.

(** C19, division independence: the result depends only on the byte sequences,
    and is negative / positive exactly when the first differing byte is smaller /
    larger; zero exactly when one is a prefix of the other.  The full claim (zero
    exactly when equal) is false, see below. *)
Theorem C19_blob_compare_partial : forall a b : list bytes,
  exists r, blob_compare a b = Ok r /\
    ((r < 0)%Z <-> exists x y, first_difference (List.concat a) (List.concat b) x y /\ bval x < bval y) /\
    ((r > 0)%Z <-> exists x y, first_difference (List.concat b) (List.concat a) x y /\ bval x < bval y) /\
    (r = 0%Z <-> is_prefix (List.concat a) (List.concat b) \/ is_prefix (List.concat b) (List.concat a)).
Proof.
  intros a b. rewrite blob_compare_memcmp. eexists. split; [reflexivity|].
  split; [apply memcmp_neg|]. split; [|apply memcmp_zero].
  rewrite <- memcmp_neg, memcmp_antisym. lia.
Qed.
Print Assumptions C19_blob_compare_partial.

(** For contents of the same length, zero means byte-for-byte equal. *)
Theorem C19_blob_equal_partial : forall a b : list bytes,
  List.length (List.concat a) = List.length (List.concat b) ->
  (blob_compare a b = Ok 0%Z <-> List.concat a = List.concat b).
Proof.
  intros a b L. rewrite blob_compare_memcmp. split.
  - intros H. injection H as H. apply memcmp_zero in H.
    destruct H as [[r H]|[r H]]; rewrite H in L; rewrite app_length in L;
      (destruct r; [|cbn in L; lia]); rewrite app_nil_r in H; congruence.
  - intros E. f_equal. apply memcmp_zero. left. exists []. rewrite app_nil_r. congruence.
Qed.
Print Assumptions C19_blob_equal_partial.

Example C19_case : blob_compare [s2b "ab"; []; s2b "cde"] [s2b "a"; s2b "bcd"; s2b "e"] = Ok 0%Z /\
  blob_compare [s2b "ab"; s2b "x"] [s2b "a"; s2b "b"; s2b "c"] = Ok 1%Z.
Proof. split; vm_compute; reflexivity. Qed.

(** Full claim refuted: a proper prefix compares equal. *)
Theorem C19_blob_compare_refuted : exists a b : list bytes,
  List.concat a <> List.concat b /\ blob_compare a b = Ok 0%Z.
Proof. exists [s2b "ab"], [s2b "abc"]. split; [discriminate|vm_compute; reflexivity]. Qed.
Print Assumptions C19_blob_compare_refuted.

(** Hence the comparison is not transitive either. *)
Theorem C19_blob_transitive_refuted : exists a b c : list bytes,
  blob_compare a b = Ok 0%Z /\ blob_compare b c = Ok 0%Z /\ blob_compare a c <> Ok 0%Z.
Proof.
  exists [s2b "ab"], [s2b "a"], [s2b "ac"].
  split; [vm_compute; reflexivity|split; [vm_compute; reflexivity|vm_compute; discriminate]].
Qed.
Print Assumptions C19_blob_transitive_refuted.

(** A copy holds the same bytes in one buffer (total below 2^32) and compares
    equal to the original. *)
Lemma total_length_small a : N.of_nat (List.length (List.concat a)) < 2^32 ->
  total_length a = N.of_nat (List.length (List.concat a)).
Proof.
  unfold total_length.
  enough (G : forall n, n + N.of_nat (List.length (List.concat a)) < 2^32 ->
    fold_left (fun n b => wrap32 (n + N.of_nat (List.length b))) a n = n + N.of_nat (List.length (List.concat a))).
  { intros H. apply (G 0). lia. }
  induction a as [|x a IH]; intros n H; cbn [fold_left List.concat].
  - cbn. lia.
  - cbn [List.concat] in H. rewrite app_length in *. rewrite IH; unfold wrap32; rewrite N.mod_small; lia.
Qed.

Theorem C19_blob_copy_partial : forall a : list bytes,
  a <> [] -> N.of_nat (List.length (List.concat a)) < 2^32 ->
  blob_copy a = Ok [List.concat a] /\ blob_compare a [List.concat a] = Ok 0%Z.
Proof.
  intros a Ha L. split.
  - unfold blob_copy. destruct a as [|x a]; [congruence|]. unfold create_copy.
    rewrite total_length_small by exact L. rewrite N.leb_refl. reflexivity.
  - apply C19_blob_equal_partial; cbn [List.concat]; rewrite app_nil_r; reflexivity.
Qed.
Print Assumptions C19_blob_copy_partial.

Example C19_copy_case : blob_copy [s2b "ab"; []; s2b "c"] = Ok [s2b "abc"].
Proof. vm_compute. reflexivity. Qed.
