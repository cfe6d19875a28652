(** Property C30: memory output never overruns. *)
From Verif Require Import Base ParserInput ParserInputProofs EmitterOutput.
Open Scope N_scope.

Fixpoint sum_len (ws : list bytes) : N := match ws with [] => 0 | w :: t => llen w + sum_len t end.

Lemma store_append mem out w : out + llen w <= llen mem ->
  take (out + llen w) (buf_store mem out w) = take out mem ++ w /\
  drop (out + llen w) (buf_store mem out w) = drop (out + llen w) mem.
Proof.
  intros H. unfold buf_store. split.
  - rewrite take_app, llen_take, N.min_l by lia.
    rewrite (take_all (out + llen w) (take out mem)) by (rewrite llen_take; lia). f_equal.
    replace (out + llen w - out) with (llen w) by lia.
    rewrite take_app, N.sub_diag, take_0, app_nil_r. apply take_all. lia.
  - rewrite drop_app, llen_take, N.min_l by lia.
    rewrite (drop_all (out + llen w) (take out mem)) by (rewrite llen_take; lia). cbn [app].
    replace (out + llen w - out) with (llen w) by lia.
    rewrite drop_app, N.sub_diag, drop_0. rewrite (drop_all (llen w) w) by lia. reflexivity.
Qed.

Lemma mo_writes_spec : forall ws mem out, out <= llen mem ->
  Forall (fun w => llen w + llen mem < 2^32) ws ->
  exists m' fits ws1 ws2, mo_writes (MOutput mem out) ws = Ok (m', fits) /\
    ws = ws1 ++ ws2 /\
    mo_out m' = out + sum_len ws1 /\ mo_out m' <= llen mem /\ llen (mo_mem m') = llen mem /\
    take (mo_out m') (mo_mem m') = take out mem ++ List.concat ws1 /\
    drop (mo_out m') (mo_mem m') = drop (mo_out m') mem /\
    (fits = true -> ws2 = []) /\
    (fits = false -> exists w t, ws2 = w :: t /\ llen mem < mo_out m' + llen w).
Proof.
  induction ws as [|w ws IH]; intros mem out Hout F.
  - exists (MOutput mem out), true, [], []. cbn [mo_writes mo_out mo_mem sum_len List.concat app].
    rewrite app_nil_r, N.add_0_r. repeat split; auto; try lia; discriminate.
  - inversion F as [|? ? F1 F2]; subst. cbn [mo_writes]. unfold mo_write; cbn [mo_mem mo_out].
    assert (Wr : wrap32 (out + llen w) = out + llen w) by (unfold wrap32; apply N.mod_small; lia).
    rewrite Wr. destruct (llen mem <? out + llen w) eqn:E.
    + exists (MOutput mem out), false, [], (w :: ws). cbn [mo_out mo_mem sum_len List.concat app].
      rewrite app_nil_r, N.add_0_r. repeat split; auto; try lia; try discriminate.
      intros _. exists w, ws. split; [reflexivity|lia].
    + destruct (store_append mem out w ltac:(lia)) as [S1 S2].
      assert (L : llen (buf_store mem out w) = llen mem) by (apply buf_store_len; lia).
      assert (F2' : Forall (fun w0 => llen w0 + llen (buf_store mem out w) < 2^32) ws) by (rewrite L; exact F2).
      destruct (IH (buf_store mem out w) (out + llen w) ltac:(lia) F2')
        as (m' & fits & ws1 & ws2 & R & -> & O & B & Lm & T & D & X1 & X2).
      rewrite L in *. rewrite S1 in T.
      assert (D' : drop (mo_out m') (buf_store mem out w) = drop (mo_out m') mem).
      { replace (mo_out m') with (out + llen w + sum_len ws1) by lia.
        rewrite <- (drop_drop (out + llen w)), S2, drop_drop. reflexivity. }
      exists m', fits, (w :: ws1), ws2. cbn [sum_len List.concat app].
      rewrite <- app_assoc in T. repeat split; auto; try lia; congruence.
Qed.

(** C30.  Starting from a counter within the buffer, whatever is written: nothing
    outside the buffer is touched (no undefined behaviour, the rest of the buffer
    keeps its contents), the counter is the number of bytes stored, and the
    exception is raised exactly at the first write that does not fit.  Partial:
    each write plus the buffer size must be below 2^32. *)
Theorem C30_memory_output_partial : forall (mem : bytes) (out : N) (ws : list bytes),
  out <= llen mem -> Forall (fun w => llen w + llen mem < 2^32) ws ->
  exists m' fits ws1 ws2, mo_writes (MOutput mem out) ws = Ok (m', fits) /\
    ws = ws1 ++ ws2 /\
    mo_out m' = out + sum_len ws1 /\ mo_out m' <= llen mem /\ llen (mo_mem m') = llen mem /\
    take (mo_out m') (mo_mem m') = take out mem ++ List.concat ws1 /\
    drop (mo_out m') (mo_mem m') = drop (mo_out m') mem /\
    (fits = true -> ws2 = []) /\
    (fits = false -> exists w t, ws2 = w :: t /\ llen mem < mo_out m' + llen w).
Proof. intros mem out ws. apply mo_writes_spec. Qed.
Print Assumptions C30_memory_output_partial.

Example C30_case : mo_writes (MOutput (s2b "........") 0) [s2b "abc"; s2b "de"; s2b "fghi"] =
  Ok (MOutput (s2b "abcde...") 5, false).
Proof. vm_compute. reflexivity. Qed.

(** Refuted without the size condition: the 32-bit sum wraps and the check passes. *)
Theorem C30_memory_output_refuted : exists (m : moutput) (n : N), n < 2^32 /\
  mo_out m <= llen (mo_mem m) /\
  forall data : bytes, llen data = n -> mo_write m data = UB.
Proof.
  exists (MOutput (s2b "........") 8), (2^32 - 2). split; [reflexivity|]. split; [vm_compute; discriminate|].
  intros data H. unfold mo_write. rewrite H. reflexivity.
Qed.
Print Assumptions C30_memory_output_refuted.

(** Without a caller-supplied counter the very first use is undefined. *)
Theorem C30_no_counter_refuted : forall mem, mo_new mem None = UB.
Proof. reflexivity. Qed.
Print Assumptions C30_no_counter_refuted.
