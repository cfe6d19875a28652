(** Property C31: stream input delivers the stream. *)
From Verif Require Import Base ParserInput ParserInputProofs.
Open Scope N_scope.

(** ** Specification *)

(** [delivers full rem held ops outs]: with [rem] the bytes of the stream not yet
    released and [held] the number of bytes the caller currently holds, the
    outputs [outs] of the calls [ops] are those of the byte stream [rem]:
    - GetPtr returns null only at the end of the stream (if [full]);
    - otherwise it shows a non-empty prefix of the remaining bytes, as long as
      requested unless the stream ends before (if [full]);
    - Release n (of bytes that are held) removes n bytes from the front. *)
Fixpoint delivers (full : Prop) (rem : bytes) (held : N) (ops : list iop) (outs : list iout) : Prop :=
  match ops, outs with
  | [], [] => True
  | GetPtr len :: ops', OPtr None :: outs' =>
      (full -> rem = []) /\ delivers full rem 0 ops' outs'
  | GetPtr len :: ops', OPtr (Some b) :: outs' =>
      b <> [] /\ exists r, rem = b ++ r /\ (full -> len <= llen b \/ r = []) /\
      delivers full rem (llen b) ops' outs'
  | Release n :: ops', ODone :: outs' =>
      n <= held /\ delivers full (drop n rem) (held - n) ops' outs'
  | _, _ => False
  end.

(** Bytes held after a sequence of calls. *)
Fixpoint held_after (held : N) (ops : list iop) (outs : list iout) : N :=
  match ops, outs with
  | GetPtr _ :: ops', OPtr None :: outs' => held_after 0 ops' outs'
  | GetPtr _ :: ops', OPtr (Some b) :: outs' => held_after (llen b) ops' outs'
  | Release n :: ops', _ :: outs' => held_after (held - n) ops' outs'
  | _, _ => held
  end.

(** Requests are at most 2^31 bytes. *)
Definition requests_ok (ops : list iop) : Prop :=
  Forall (fun o => match o with GetPtr len => len <= 2^31 | Release _ => True end) ops.

(** The calls are answered as by the stream [data], or the caller at some point
    released more than it held and got the exception. *)
Definition stream_behaviour (full : Prop) (data : bytes) (ops : list iop)
  (run : list iop -> res (list iout * sinput)) : Prop :=
  (exists outs s', run ops = Ok (outs, s') /\ delivers full data 0 ops outs) \/
  (exists ops1 n ops2 outs1 s1, ops = ops1 ++ Release n :: ops2 /\
     run ops1 = Ok (outs1, s1) /\ delivers full data 0 ops1 outs1 /\
     held_after 0 ops1 outs1 < n /\ run ops = Throw RuntimeError).

(** ** Proofs *)

Lemma release_spec s n : wf s -> n <= si_num s ->
  exists s', si_release s n = Ok s' /\ wf s' /\ llen (si_buf s') = llen (si_buf s) /\
    pending s' = drop n (pending s) /\ si_num s' = si_num s - n /\ si_eof s' = si_eof s /\ si_src s' = si_src s.
Proof.
  intros W H. pose proof (view_len s W) as VL. destruct W as (W1 & W2 & W3). unfold si_release.
  destruct (si_num s <? n) eqn:E; [lia|]. unfold pending. rewrite drop_app, VL.
  replace (n - si_num s) with 0 by lia. rewrite drop_0.
  destruct (n =? si_num s) eqn:E2.
  - eexists. split; [reflexivity|]. unfold wf, view; cbn [si_buf si_num si_off si_eof si_src].
    rewrite take_0. rewrite (drop_all n (take _ _)) by (unfold view in VL; lia).
    repeat split; lia.
  - eexists. split; [reflexivity|]. unfold wf, view; cbn [si_buf si_num si_off si_eof si_src].
    repeat split; try lia. f_equal. rewrite drop_take, drop_drop. reflexivity.
Qed.

Lemma si_run_spec (full : Prop) f : (3 <= f)%nat -> forall ops s,
  wf s -> small s -> requests_ok ops ->
  (full -> full_reads (si_src s)) ->
  (full -> si_eof s = true -> src_data (si_src s) = []) ->
  (exists outs s', si_run f s ops = Ok (outs, s') /\ delivers full (pending s) (si_num s) ops outs) \/
  (exists ops1 n ops2 outs1 s1, ops = ops1 ++ Release n :: ops2 /\
     si_run f s ops1 = Ok (outs1, s1) /\ delivers full (pending s) (si_num s) ops1 outs1 /\
     held_after (si_num s) ops1 outs1 < n /\ si_run f s ops = Throw RuntimeError).
Proof.
  intros Hf. induction ops as [|o ops IH]; intros s W Sm RQ FR FE.
  { left. exists [], s. split; [reflexivity|exact I]. }
  inversion RQ as [|? ? RO RR]; subst. destruct o as [len|n].
  - destruct (getptr_spec s len f W Sm RO Hf)
      as (r & s1 & v & E1 & V1 & W1 & S1 & P1 & F1 & N1 & VN & VS & D1 & X1).
    assert (FR1 : full -> full_reads (si_src s1)) by auto.
    assert (FE1 : full -> si_eof s1 = true -> src_data (si_src s1) = []) by auto.
    specialize (IH s1 W1 S1 RR FR1 FE1).
    assert (Run : forall ops', si_run f s (GetPtr len :: ops') =
      do (xs, s2) <- si_run f s1 ops'; Ok (OPtr v :: xs, s2)).
    { intros. cbn [si_run si_step]. rewrite E1. cbn [rbind]. rewrite V1. reflexivity. }
    assert (Del : forall ops' outs, delivers full (pending s1) (si_num s1) ops' outs ->
      delivers full (pending s) (si_num s) (GetPtr len :: ops') (OPtr v :: outs)).
    { intros ops' outs Hd. rewrite P1 in Hd. cbn [delivers]. destruct v as [b|].
      - destruct (VS b eq_refl) as [-> NE]. split; [exact NE|].
        exists (src_data (si_src s1)). split; [rewrite <- P1; reflexivity|]. split.
        + intros Hfull. rewrite view_len by exact W1. destruct D1 as [D1|[D1 _]]; [right; auto|left; exact D1].
        + rewrite view_len by exact W1. exact Hd.
      - destruct (VN eq_refl) as [Z Ee]. rewrite Z in Hd. split; [|exact Hd].
        intros Hfull. rewrite <- P1. unfold pending. rewrite (FE1 Hfull Ee), app_nil_r.
        apply llen_0. rewrite view_len by exact W1. exact Z. }
    assert (Held : forall ops' outs, held_after (si_num s) (GetPtr len :: ops') (OPtr v :: outs)
                                    = held_after (si_num s1) ops' outs).
    { intros. cbn [held_after]. destruct v as [b|].
      - destruct (VS b eq_refl) as [-> _]. rewrite view_len by exact W1. reflexivity.
      - destruct (VN eq_refl) as [Z _]. rewrite Z. reflexivity. }
    destruct IH as [(outs & s' & R & Dl)|(ops1 & n & ops2 & outs1 & s1' & -> & R & Dl & H & T)].
    + left. exists (OPtr v :: outs), s'. rewrite Run, R. cbn [rbind]. split; [reflexivity|]. apply Del, Dl.
    + right. exists (GetPtr len :: ops1), n, ops2, (OPtr v :: outs1), s1'.
      split; [reflexivity|]. rewrite Run, R. cbn [rbind]. split; [reflexivity|].
      split; [apply Del, Dl|]. rewrite Held. split; [exact H|]. rewrite Run, T. reflexivity.
  - destruct (N.ltb (si_num s) n) eqn:E.
    + right. exists [], n, ops, [], s. split; [reflexivity|]. split; [reflexivity|]. split; [exact I|].
      split; [cbn; lia|]. cbn [si_run si_step]. unfold si_release. rewrite E. reflexivity.
    + destruct (release_spec s n W ltac:(lia)) as (s1 & E1 & W1 & B1 & P1 & N1 & Ee1 & S1).
      assert (Sm1 : small s1) by (unfold small in *; lia).
      specialize (IH s1 W1 Sm1 RR ltac:(rewrite S1; exact FR) ltac:(rewrite S1, Ee1; exact FE)).
      rewrite P1, N1 in IH.
      assert (Run : forall ops', si_run f s (Release n :: ops') =
        do (xs, s2) <- si_run f s1 ops'; Ok (ODone :: xs, s2)).
      { intros. cbn [si_run si_step]. rewrite E1. reflexivity. }
      destruct IH as [(outs & s' & R & Dl)|(ops1 & n' & ops2 & outs1 & s1' & -> & R & Dl & H & T)].
      * left. exists (ODone :: outs), s'. rewrite Run, R. cbn [rbind]. split; [reflexivity|].
        cbn [delivers]. split; [lia|exact Dl].
      * right. exists (Release n :: ops1), n', ops2, (ODone :: outs1), s1'.
        split; [reflexivity|]. rewrite Run, R. cbn [rbind]. split; [reflexivity|].
        split; [cbn [delivers]; split; [lia|exact Dl]|]. split; [exact H|]. rewrite Run, T. reflexivity.
Qed.

Lemma new_ok bl src : 0 < bl -> bl <= 2^31 ->
  wf (si_new bl src) /\ small (si_new bl src) /\ pending (si_new bl src) = src_data src.
Proof.
  intros H1 H2. unfold wf, small, pending, view, si_new; cbn [si_buf si_num si_off si_src].
  rewrite llen_repeat, N2Nat.id, take_0. repeat split; lia.
Qed.

(** C31.  A stream input over a source that returns fewer bytes than asked only at
    its end (fread, sgetn) delivers exactly the stream, for every pattern of calls
    and without undefined behaviour.  Partial: requests and buffer at most 2^31
    bytes, and such a source; see the refutations. *)
Theorem C31_stream_delivers_partial :
  forall (data : bytes) (buffer_len : N) (ops : list iop) (fuel : nat),
  0 < buffer_len -> buffer_len <= 2^31 -> requests_ok ops -> (3 <= fuel)%nat ->
  stream_behaviour True data ops (si_run fuel (si_new buffer_len (Source data []))).
Proof.
  intros data bl ops f H1 H2 RQ Hf.
  destruct (new_ok bl (Source data []) H1 H2) as (W & Sm & P).
  pose proof (si_run_spec True f Hf ops _ W Sm RQ) as G. rewrite P in G. cbn [src_data] in G.
  apply G; [intros _; apply Forall_nil|intros _ K; discriminate K].
Qed.
Print Assumptions C31_stream_delivers_partial.

(** With any source, short reads included, what is delivered is still a prefix of
    the stream, in order, without duplication and without undefined behaviour. *)
Theorem C31_stream_prefix_partial :
  forall (src : source) (buffer_len : N) (ops : list iop) (fuel : nat),
  0 < buffer_len -> buffer_len <= 2^31 -> requests_ok ops -> (3 <= fuel)%nat ->
  stream_behaviour False (src_data src) ops (si_run fuel (si_new buffer_len src)).
Proof.
  intros src bl ops f H1 H2 RQ Hf.
  destruct (new_ok bl src H1 H2) as (W & Sm & P).
  pose proof (si_run_spec False f Hf ops _ W Sm RQ) as G. rewrite P in G.
  apply G; intros [].
Qed.
Print Assumptions C31_stream_prefix_partial.

Example C31_case :
  let ops := [GetPtr 0; Release 3; GetPtr 3; Release 1; GetPtr 6; Release 6; GetPtr 0] in
  requests_ok ops /\
  (do (outs, _) <- si_run 3 (si_new 4 (Source (s2b "abcdefghij") [])) ops; Ok outs) =
  Ok [OPtr (Some (s2b "abcd")); ODone; OPtr (Some (s2b "defg")); ODone;
      OPtr (Some (s2b "efghij")); ODone; OPtr None].
Proof.
  split; [|vm_compute; reflexivity].
  repeat (apply Forall_cons; [first [exact I | vm_compute; discriminate]|]). apply Forall_nil.
Qed.

(** Full claim refuted: a source that returns fewer bytes than asked before its
    end loses the rest of the stream (src/ParserInput.cc:70). *)
Theorem C31_short_read_refuted : exists (src : source) (ops : list iop) (outs : list iout) (s' : sinput),
  si_run 3 (si_new 4 src) ops = Ok (outs, s') /\ ~ delivers True (src_data src) 0 ops outs.
Proof.
  exists (Source (s2b "abcdef") [Some 2]), [GetPtr 0; Release 2; GetPtr 0].
  eexists. eexists. split; [vm_compute; reflexivity|].
  cbn [delivers src_data]. intros (_ & r & E & _ & _ & K & _). specialize (K I). discriminate K.
Qed.
Print Assumptions C31_short_read_refuted.

(** And a request close to 2^32 makes the reading loop run forever: the sum at
    line 57 wraps, so the buffer is not enlarged. *)
Theorem C31_large_request_refuted : exists (s : sinput),
  (exists ops outs, si_run 3 (si_new 4 (Source (s2b "abcdefgh") [])) ops = Ok (outs, s)) /\
  forall fuel, si_getptr fuel s (2^32 - 1) = Fuel.
Proof.
  set (s := SInput (s2b "abcd") 3 1 false (Source (s2b "efgh") [])).
  exists s. split.
  - exists [GetPtr 0; Release 1]. eexists. vm_compute. reflexivity.
  - intros fuel. unfold si_getptr. change (si_eof s) with false.
    change ((2 ^ 32 - 1 <=? si_num s) && (0 <? si_num s))%bool with false.
    change (make_room s (2^32 - 1)) with (Ok s). cbn [rbind].
    enough (E : fill_loop fuel s (2^32-1) = Fuel) by (rewrite E; reflexivity).
    induction fuel as [|f IH]; [reflexivity|].
    cbn [fill_loop].
    change (negb (si_eof s) && ((si_num s <? 2 ^ 32 - 1) || (si_num s =? 0)))%bool with true. cbv iota.
    change (llen (si_buf s) <? si_num s + si_off s) with false. cbv iota.
    change (llen (si_buf s) - si_num s - si_off s) with 0.
    change (src_read (si_src s) 0) with (@nil ascii, Source (s2b "efgh") []). cbv iota beta.
    exact IH.
Qed.
Print Assumptions C31_large_request_refuted.

(** ** Memory input *)

Fixpoint total_released (ops : list iop) : N :=
  match ops with [] => 0 | Release n :: t => n + total_released t | _ :: t => total_released t end.

(** As long as no more is released than there is, the memory input always shows
    exactly the unreleased rest of the memory block, and never throws. *)
Fixpoint shows_rest (rem : bytes) (ops : list iop) (outs : list iout) : Prop :=
  match ops, outs with
  | [], [] => True
  | GetPtr _ :: ops', OPtr v :: outs' =>
      v = (match rem with [] => None | _ => Some rem end) /\ shows_rest rem ops' outs'
  | Release n :: ops', ODone :: outs' => shows_rest (drop n rem) ops' outs'
  | _, _ => False
  end.

Lemma mi_run_spec data : llen data < 2^32 -> forall ops off, off + total_released ops <= llen data ->
  exists outs m', mi_run (MInput data off) ops = Ok (outs, m') /\ shows_rest (drop off data) ops outs.
Proof.
  intros HL. induction ops as [|o ops IH]; intros off H.
  - exists [], (MInput data off). split; [reflexivity|exact I].
  - destruct o as [len|n]; cbn [total_released] in H.
    + destruct (IH off H) as (outs & m' & R & D). cbn [mi_run mi_step]. unfold mi_getptr. cbn [mi_data mi_off].
      destruct (llen data <? off) eqn:E; [lia|]. cbn [rbind]. rewrite R. cbn [rbind].
      eexists. eexists. split; [reflexivity|]. cbn [shows_rest]. split; [|exact D].
      pose proof (llen_drop off data) as L.
      destruct (0 <? llen data - off) eqn:E2; unfold mi_view; cbn [fst snd mi_data].
      * destruct (drop off data) as [|c t] eqn:K; [cbn in L; lia|]. f_equal. apply take_all. lia.
      * rewrite (llen_0 (drop off data)) by lia. reflexivity.
    + cbn [mi_run mi_step rbind]. unfold mi_release. cbn [mi_data mi_off].
      replace (wrap32 (off + n)) with (off + n) by (unfold wrap32; rewrite N.mod_small; lia).
      destruct (IH (off + n) ltac:(lia)) as (outs & m' & R & D). rewrite R. cbn [rbind].
      eexists. eexists. split; [reflexivity|]. cbn [shows_rest]. rewrite drop_drop. exact D.
Qed.

Theorem C31_memory_delivers : forall (data : bytes) (ops : list iop),
  llen data < 2^32 -> total_released ops <= llen data ->
  exists outs m', mi_run (MInput data 0) ops = Ok (outs, m') /\ shows_rest data ops outs.
Proof. intros data ops H1 H2. exact (mi_run_spec data H1 ops 0 ltac:(lia)). Qed.
Print Assumptions C31_memory_delivers.

Example C31_memory_case :
  (do (outs, _) <- mi_run (MInput (s2b "abc") 0) [GetPtr 9; Release 2; GetPtr 0; Release 1; GetPtr 0]; Ok outs)
  = Ok [OPtr (Some (s2b "abc")); ODone; OPtr (Some (s2b "c")); ODone; OPtr None].
Proof. vm_compute. reflexivity. Qed.
