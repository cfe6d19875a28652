(** Property C05 (the emitted bytes do not depend on how the output takes them) and
    the JSON part of C30 (serializing into memory). *)
From Verif Require Import Base CNum Float FloatText Value Emit Base64 Base64Spec ParserInput ParserInputProofs
  JSONEmitter JSONEmitterProofs JsonText JsonTextProofs EmitterOutput P_EmitterOutput.
Open Scope N_scope.

Section Run.
  Context {W : Type} (write : W -> bytes -> wres W).
  Variables (got : W -> bytes) (inv : W -> Prop) (budget : W -> nat) (limit : option N) (err : exn) (maxw : N).
  Hypothesis maxw_ok : 512 <= maxw < 2^32.
  Hypothesis write_ok : forall w data, inv w -> data <> [] -> llen data <= maxw ->
    match write w data with
    | WOk n w' => n <= llen data /\ got w' = got w ++ take n data /\ inv w' /\
                  (budget w' <= budget w)%nat /\ (n = 0 -> (budget w' < budget w)%nat)
    | WThrow e w' => e = err /\ got w' = got w /\ inv w' /\ (budget w' <= budget w)%nat /\
                     beyond limit (llen (got w) + llen data)
    | WUB => False
    end.
  Notation bpush := (bpushed got inv budget limit err).
  Notation wfb := (bwf inv).

  Lemma prims_size_app_l p a b : (prims_size p a <= prims_size p (a ++ b))%nat.
  Proof using. clear maxw_ok. induction a; cbn [prims_size app]; [apply prims_size_512|lia]. Qed.
  Lemma prims_size_app_r p a b : (prims_size p b <= prims_size p (a ++ b))%nat.
  Proof using. clear maxw_ok. induction a; cbn [prims_size app]; lia. Qed.

  (** Either the whole trace is pushed and the run ends as the trace says, or the
      output refused something. *)
  Lemma je_run_ok fuel p : forall es st b cs st' x, je_trace p st es = Ok (cs, st', x) -> wfb b -> Forall (prim_fits maxw) cs ->
    (budget (jb_out b) + prims_size p cs < fuel)%nat ->
    exists st'' b' y, je_run write fuel p st b es = Ok (st'', b', y) /\
      ((y = x /\ bpush b b' None (prims_text p cs)) \/ (exists e, y = Some e /\ bpush b b' (Some e) (prims_text p cs))).
  Proof.
    induction es as [|e es IH]; intros st b cs st' x H B Hp Hf; cbn [je_trace je_run] in *.
    - injection H as <- <- <-. exists st, b, None. split; [reflexivity|]. left. split; [reflexivity|].
      split; [exact B|]. split; [lia|]. cbn. now rewrite app_nil_r.
    - destruct (je_calls p st e) as [[[c s] x1]| | | |]; try discriminate. cbn [rbind] in H |- *.
      destruct x1 as [e1|].
      + injection H as <- <- <-.
        destruct (exec_prims_ok write got inv budget limit err maxw maxw_ok write_ok fuel p c b B Hp Hf) as (b1 & y & R & P).
        rewrite R. cbn [rbind]. destruct y as [e2|].
        * eexists _, _, _. split; [reflexivity|]. right. eexists. split; [reflexivity|exact P].
        * eexists _, _, _. split; [reflexivity|]. left. split; [reflexivity|exact P].
      + destruct (je_trace p s es) as [[[c2 s2] x2]| | | |] eqn:E; try discriminate.
        cbn [rbind] in H. injection H as <- <- <-.
        apply Forall_app in Hp. destruct Hp as [Hp1 Hp2]. pose proof (prims_size_app_l p c c2). pose proof (prims_size_app_r p c c2).
        destruct (exec_prims_ok write got inv budget limit err maxw maxw_ok write_ok fuel p c b B Hp1 ltac:(lia)) as (b1 & y & R & P).
        rewrite R. cbn [rbind]. rewrite prims_text_app. destruct y as [e2|].
        * eexists _, _, _. split; [reflexivity|]. right. eexists. split; [reflexivity|].
          apply bpushed_more. exact P.
        * pose proof P as (B1 & Bg & _).
          destruct (IH s b1 c2 s2 x2 E B1 Hp2 ltac:(lia)) as (st'' & b2 & y & R2 & P2).
          exists st'', b2, y. split; [exact R2|]. destruct P2 as [(-> & P2)|(e2 & -> & P2)].
          -- left. split; [reflexivity|]. exact (bpushed_trans _ _ _ _ _ _ _ _ _ _ _ P P2).
          -- right. eexists. split; [reflexivity|]. exact (bpushed_trans _ _ _ _ _ _ _ _ _ _ _ P P2).
  Qed.

  Lemma new_wf w : inv w -> wfb (jb_new w).
  Proof using. clear maxw_ok. intros H. split; [reflexivity|]. split; [cbn; discriminate|exact H]. Qed.
  Lemma new_text w : btext got (jb_new w) = got w.
  Proof using. clear maxw_ok. unfold btext. cbn. apply app_nil_r. Qed.

  (** An emission followed by Close. *)
  Lemma run_close_ok fuel p w es cs st' x : je_trace p [] es = Ok (cs, st', x) -> inv w -> Forall (prim_fits maxw) cs ->
    limit = None -> (budget w + prims_size p cs < fuel)%nat ->
    exists st'' b b', je_run write fuel p [] (jb_new w) es = Ok (st'', b, x) /\
      flush write fuel b = Ok (b', None) /\ jb_len b' = 0 /\ wfb b' /\
      got (jb_out b') = got w ++ prims_text p cs.
  Proof.
    intros H I Hp L Hf.
    destruct (je_run_ok fuel p es [] (jb_new w) cs st' x H (new_wf w I) Hp Hf) as (st'' & b & y & R & [(-> & P)|(e & -> & P)]).
    2: { destruct P as (_ & _ & _ & Hb & _). rewrite L in Hb. destruct Hb. }
    pose proof P as (B & Bg & T). pose proof (prims_size_512 p cs).
    destruct (flush_ok write got inv budget limit err maxw maxw_ok write_ok fuel b B ltac:(cbn in Bg; lia)) as (b' & z & R2 & P2 & Q & _).
    destruct z as [e|].
    { destruct P2 as (_ & _ & _ & Hb & _). rewrite L in Hb. destruct Hb. }
    exists st'', b, b'. split; [exact R|]. split; [exact R2|]. specialize (Q eq_refl). split; [exact Q|].
    split; [apply P2|]. rewrite (bpushed_nil_len _ _ _ _ _ _ _ _ P2 eq_refl Q), T, new_text. reflexivity.
  Qed.
End Run.

(** ** Outputs that take part of what they are given *)

(** An output that takes at most [n] bytes at its next call, for each [n] of the
    schedule in turn (0 included), and everything from then on. *)
Record chunky := Chunky { ck_sched : list N; ck_got : bytes }.
Definition ck_write (w : chunky) (data : bytes) : wres chunky :=
  match ck_sched w with
  | [] => WOk (llen data) (Chunky [] (ck_got w ++ data))
  | n :: t => let k := N.min n (llen data) in WOk k (Chunky t (ck_got w ++ take k data))
  end.

Lemma ck_max : 512 <= 2^32 - 1 < 2^32.
Proof. split; [discriminate|reflexivity]. Qed.
Lemma ck_fits cs : Forall (prim_fits (2^32 - 1)) cs.
Proof. apply Forall_forall. intros [t| |] _; cbn [prim_fits]; auto. pose proof (wrap32_lt (llen t)). lia. Qed.

Lemma ck_write_ok : forall w data, True -> data <> [] -> llen data <= 2^32 - 1 ->
  match ck_write w data with
  | WOk n w' => n <= llen data /\ ck_got w' = ck_got w ++ take n data /\ True /\
                (List.length (ck_sched w') <= List.length (ck_sched w))%nat /\
                (n = 0 -> (List.length (ck_sched w') < List.length (ck_sched w))%nat)
  | WThrow e w' => e = RuntimeError /\ ck_got w' = ck_got w /\ True /\
                   (List.length (ck_sched w') <= List.length (ck_sched w))%nat /\
                   beyond None (llen (ck_got w) + llen data)
  | WUB => False
  end.
Proof.
  intros [s g] data _ N0 _. unfold ck_write. destruct s as [|n s]; cbn [ck_sched ck_got List.length].
  - split; [lia|]. split; [rewrite take_all by lia; reflexivity|]. repeat split; auto.
    intros K. apply llen_0 in K. congruence.
  - repeat split; auto; lia.
Qed.

(** The bytes an output has received after a sequence of emitter calls and Close,
    and the exception the calls ended with, if any. *)
Definition document (fuel : nat) (p : jparams) (sched : list N) (es : list eev) : res (bytes * option exn) :=
  do (_, b, x) <- je_run ck_write fuel p [] (jb_new (Chunky sched [])) es;
  do (b, _) <- flush ck_write fuel b;
  Ok (ck_got (jb_out b), x).

(** Iterations sufficient for a sequence of calls. *)
Fixpoint run_size (p : jparams) (st : list jst) (es : list eev) : nat :=
  match es with
  | [] => 512
  | e :: t => match je_calls p st e with
              | Ok (cs, st', x) => Nat.max (prims_size p cs) (run_size p st' t)
              | _ => 512
              end
  end.
Lemma run_size_512 p : forall es st, (512 <= run_size p st es)%nat.
Proof.
  induction es as [|e es IH]; intros st; cbn [run_size]; [lia|].
  destruct (je_calls p st e) as [[[cs s] x]| | | |]; try lia. specialize (IH s). lia.
Qed.

(** One outcome for all outputs. *)
Lemma run_same p : forall es st, exists r : res (bytes * option exn),
  forall b fuel, bwf (fun _ => True) b -> (List.length (ck_sched (jb_out b)) + run_size p st es < fuel)%nat ->
    (do (_, b', x) <- je_run ck_write fuel p st b es;
     do (b', _) <- flush ck_write fuel b';
     Ok (ck_got (jb_out b'), x)) =
    match r with Ok (t, x) => Ok (btext ck_got b ++ t, x) | Throw e => Throw e | UB => UB | Abort => Abort | Fuel => Fuel end.
Proof.
  induction es as [|e es IH]; intros st.
  - exists (Ok ([], None)). intros b fuel B Hf. cbn [je_run rbind run_size] in *.
    destruct (flush_ok ck_write ck_got (fun _ => True) (fun w => List.length (ck_sched w)) None RuntimeError (2^32 - 1) ck_max ck_write_ok
                fuel b B ltac:(lia)) as (b' & x & R & P & Q & _).
    rewrite R. cbn [rbind]. destruct x as [e|]; [destruct P as (_ & _ & _ & [] & _)|].
    rewrite (bpushed_nil_len _ _ _ _ _ _ _ _ P eq_refl (Q eq_refl)). now rewrite app_nil_r.
  - cbn [run_size]. destruct (je_calls p st e) as [[[cs st1] x]|e1| | |] eqn:C.
    2: { exists (Throw e1). intros b fuel B Hf. cbn [je_run]. rewrite C. reflexivity. }
    2: { exists UB. intros b fuel B Hf. cbn [je_run]. rewrite C. reflexivity. }
    2: { exists Abort. intros b fuel B Hf. cbn [je_run]. rewrite C. reflexivity. }
    2: { exists Fuel. intros b fuel B Hf. cbn [je_run]. rewrite C. reflexivity. }
    destruct (IH st1) as (r & Hr).
    exists (match x with
            | Some e1 => Ok (prims_text p cs, Some e1)
            | None => match r with Ok (t, y) => Ok (prims_text p cs ++ t, y) | _ => r end
            end).
    intros b fuel B Hf. cbn [je_run]. rewrite C. cbn [rbind].
    pose proof (run_size_512 p es st1).
    destruct (exec_prims_ok ck_write ck_got (fun _ => True) (fun w => List.length (ck_sched w)) None RuntimeError (2^32 - 1) ck_max ck_write_ok
                fuel p cs b B (ck_fits cs) ltac:(lia)) as (b1 & y & R & P).
    rewrite R. cbn [rbind]. destruct y as [e2|]; [destruct P as (_ & _ & _ & [] & _)|].
    destruct P as (B1 & Bg & T). destruct x as [e1|].
    + destruct (flush_ok ck_write ck_got (fun _ => True) (fun w => List.length (ck_sched w)) None RuntimeError (2^32 - 1) ck_max ck_write_ok
                fuel b1 B1 ltac:(lia)) as (b' & x & R2 & P & Q & _).
      cbn [rbind]. rewrite R2. cbn [rbind]. destruct x as [e2|]; [destruct P as (_ & _ & _ & [] & _)|].
      rewrite (bpushed_nil_len _ _ _ _ _ _ _ _ P eq_refl (Q eq_refl)). now rewrite T.
    + rewrite Hr by (auto; lia). destruct r as [[t y]| | | |]; try reflexivity. now rewrite T, app_assoc.
Qed.

(** C05.  For every sequence of emitter calls and every parameter setting there is
    one result (delivered bytes and exception) that is obtained whatever the output
    takes at each write. *)
Theorem C05_bytes_independent_of_output : forall (p : jparams) (es : list eev),
  exists r, forall sched, exists F, forall fuel, (F <= fuel)%nat -> document fuel p sched es = r.
Proof.
  intros p es. destruct (run_same p es []) as (r & Hr). exists r. intros sched.
  exists (S (List.length sched + run_size p [] es)). intros fuel Hf. unfold document.
  rewrite Hr; [|apply new_wf; exact I|cbn [jb_new jb_out ck_sched]; lia].
  destruct r as [[t x]| | | |]; reflexivity.
Qed.
Print Assumptions C05_bytes_independent_of_output.

(** C05, for a value: the delivered bytes are its text, given here by recursion on
    the value, without any buffering. *)
Theorem C05_delivered_text_partial : forall (p : jparams) (v : value) (sched : list N),
  jfits p 0 v -> exists F, forall fuel, (F <= fuel)%nat ->
    document fuel p sched (emit_value v) = Ok (vtext p 0 v, None).
Proof.
  intros p v sched J. destruct (emit_value_text p v [] J) as (cs & R & T). cbn [check_separator fst snd] in R, T.
  exists (S (List.length sched + prims_size p cs)). intros fuel Hf. unfold document.
  destruct (run_close_ok ck_write ck_got (fun _ => True) (fun w => List.length (ck_sched w)) None RuntimeError (2^32 - 1) ck_max ck_write_ok
    fuel p (Chunky sched []) _ _ _ _ R I (ck_fits cs) eq_refl ltac:(cbn [ck_sched]; lia)) as (st & b & b' & R1 & R2 & _ & _ & G).
  rewrite R1. cbn [rbind]. rewrite R2. cbn [rbind]. rewrite G, T. reflexivity.
Qed.
Print Assumptions C05_delivered_text_partial.

Definition C05_value : value :=
  VMap [(s2b "a", VList [VInt (-12); VBool true; VStr (s2b "q""t")]); (s2b "b", VMap []); (s2b "c", VBlob [s2b "Man"])].
Example C05_case_fits : jfits jdefault 0 C05_value.
Proof. vm_compute. repeat split; auto. repeat constructor; discriminate. Qed.
Example C05_case : document 600 jdefault [3; 0; 1; 0; 0; 7] (emit_value C05_value) =
    Ok (s2b "{""a"": [-12,true,""q\""t""],""b"": {},""c"": ""\u0000BLOBTWFu""}", None).
Proof. vm_compute. reflexivity. Qed.
Example C05_case_pretty : document 600 (JParams true false 2 17) [0; 2] (emit_value (VList [VNull; VList []])) =
    Ok (s2b "[" ++ [bchr 10] ++ s2b "  null," ++ [bchr 10] ++ s2b "  [" ++ [bchr 10] ++ s2b "  ]" ++ [bchr 10] ++ s2b "]", None).
Proof. vm_compute. reflexivity. Qed.

(** The conditions matter: a blob with an empty buffer is undefined behaviour, and a
    string of 2^32 bytes is written as an empty one. *)
Theorem C05_delivered_text_refuted : exists v, forall fuel sched, document fuel jdefault sched (emit_value v) = UB.
Proof. exists (VBlob [[]]). reflexivity. Qed.
Print Assumptions C05_delivered_text_refuted.

Theorem C05_long_string_refuted : exists n, forall s p, llen s = n ->
  prims_text p (emit_string s) = [quote_char; quote_char].
Proof.
  exists (2^32). intros s p H. unfold emit_string. rewrite H. change (wrap32 (2^32)) with 0. rewrite take_0. reflexivity.
Qed.
Print Assumptions C05_long_string_refuted.

(** ** Serializing into memory *)

(** The memory output as an output of the emitter. *)
Definition mem_write (m : moutput) (data : bytes) : wres moutput :=
  match mo_write m data with
  | Ok m' => WOk (llen data) m'
  | Throw e => WThrow e m
  | _ => WUB
  end.

(** src/VariantEmitting.cc:97-104 Serialize to memory: the
    counter starts at zero. *)
Definition serialize_mem (fuel : nat) (p : jparams) (mem : bytes) (v : value) : res moutput :=
  je_serialize mem_write fuel p (MOutput mem 0) v.

Section Mem.
  Variable mem0 : bytes.
  Definition mgot (m : moutput) : bytes := take (mo_out m) (mo_mem m).
  Definition minv (m : moutput) : Prop := llen (mo_mem m) = llen mem0 /\ mo_out m <= llen mem0 /\
    drop (mo_out m) (mo_mem m) = drop (mo_out m) mem0.

  Lemma mem_write_ok : forall w data, minv w -> data <> [] -> llen data <= 2^32 - 1 - llen mem0 ->
    llen mem0 < 2^32 ->
    match mem_write w data with
    | WOk n w' => n <= llen data /\ mgot w' = mgot w ++ take n data /\ minv w' /\
                  (0 <= 0)%nat /\ (n = 0 -> (0 < 0)%nat)
    | WThrow e w' => e = LengthError /\ mgot w' = mgot w /\ minv w' /\ (0 <= 0)%nat /\
                     beyond (Some (llen mem0)) (llen (mgot w) + llen data)
    | WUB => False
    end.
  Proof.
    intros [mem out] data (M1 & M2 & M3) Hd Hl Hm. cbn [mo_mem mo_out] in *. unfold mem_write, mo_write. cbn [mo_mem mo_out].
    assert (Wr : wrap32 (out + llen data) = out + llen data) by (unfold wrap32; apply N.mod_small; lia).
    rewrite Wr. destruct (llen mem <? out + llen data) eqn:E.
    - repeat split; auto. unfold beyond, mgot. cbn [mo_mem mo_out]. rewrite llen_take. lia.
    - destruct (store_append mem out data ltac:(lia)) as [S1 S2].
      split; [lia|]. split; [unfold mgot; cbn [mo_mem mo_out]; rewrite S1, (take_all (llen data) data) by lia; reflexivity|].
      split; [|split; [lia|intros K; apply llen_0 in K; congruence]].
      split; [cbn [mo_mem]; rewrite buf_store_len; lia|]. split; [cbn [mo_out]; lia|].
      cbn [mo_mem mo_out]. rewrite S2, <- !(drop_drop out (llen data)), M3. reflexivity.
  Qed.
End Mem.

Lemma prims_fit p cs n : llen (prims_text p cs) <= n -> Forall (prim_fits n) cs.
Proof.
  intros H. apply Forall_forall. intros c Hc. destruct c as [t|d|]; cbn [prim_fits]; auto.
  apply in_split in Hc. destruct Hc as (l1 & l2 & ->).
  rewrite prims_text_app in H. unfold prims_text in H. cbn [flat_map prim_text] in H.
  rewrite !llen_app, llen_take in H. pose proof (wrap32_le (llen t)). lia.
Qed.

(** C30 for JSON.  Serializing a value into a caller's buffer stays inside it and
    leaves the rest alone; when the text fits it is there and the returned count is
    its length; when it does not, the call does not return normally.  Partial: sizes
    below 2^32, and see the refutation that follows for the last case. *)
Theorem C30_serialize_memory_partial : forall (p : jparams) (v : value) (mem : bytes),
  jfits p 0 v -> llen (vtext p 0 v) + llen mem + 512 < 2^32 ->
  exists F, forall fuel, (F <= fuel)%nat ->
  (llen (vtext p 0 v) <= llen mem ->
     exists mem', serialize_mem fuel p mem v = Ok (MOutput mem' (llen (vtext p 0 v))) /\
       mem' = vtext p 0 v ++ drop (llen (vtext p 0 v)) mem) /\
  (llen mem < llen (vtext p 0 v) ->
     serialize_mem fuel p mem v = Throw LengthError \/ serialize_mem fuel p mem v = Abort).
Proof.
  intros p v mem J Hs. destruct (emit_value_text p v [] J) as (cs & R & T). cbn [check_separator fst snd] in R, T.
  exists (S (prims_size p cs)). intros fuel Hf.
  set (mw := 2^32 - 1 - llen mem).
  assert (Wok : forall w data, minv mem w -> data <> [] -> llen data <= mw ->
    match mem_write w data with
    | WOk n w' => n <= llen data /\ mgot w' = mgot w ++ take n data /\ minv mem w' /\
                  (0 <= 0)%nat /\ (n = 0 -> (0 < 0)%nat)
    | WThrow e w' => e = LengthError /\ mgot w' = mgot w /\ minv mem w' /\ (0 <= 0)%nat /\
                     beyond (Some (llen mem)) (llen (mgot w) + llen data)
    | WUB => False
    end).
  { intros w data A B C. apply mem_write_ok; auto. lia. }
  assert (Mw : 512 <= mw < 2^32) by (unfold mw; lia).
  assert (Mi : minv mem (MOutput mem 0)) by (unfold minv; cbn [mo_mem mo_out]; split; [reflexivity|split; [apply N.le_0_l|reflexivity]]).
  assert (TT : prims_text p cs = vtext p 0 v) by exact T.
  assert (Pf : Forall (prim_fits mw) cs) by (apply (prims_fit p); rewrite TT; unfold mw; lia).
  set (go := je_run_ok mem_write mgot (minv mem) (fun _ => O) (Some (llen mem)) LengthError mw Mw Wok fuel p).
  set (fl := flush_ok mem_write mgot (minv mem) (fun _ => O) (Some (llen mem)) LengthError mw Mw Wok fuel).
  destruct (go (emit_value v) [] (jb_new (MOutput mem 0)) cs [] None R (new_wf (minv mem) _ Mi) Pf Hf)
    as (st & b & y & R1 & P1).
  pose proof (prims_size_512 p cs) as H512.
  unfold serialize_mem, je_serialize. rewrite R1. cbn [rbind].
  assert (N0 : btext mgot (jb_new (MOutput mem 0)) = []) by (unfold btext, mgot; cbn; reflexivity).
  (* the state after the final flushes *)
  assert (Fin : forall b1 x, bpushed mgot (minv mem) (fun _ => O) (Some (llen mem)) LengthError (jb_new (MOutput mem 0)) b1 x (vtext p 0 v) ->
     (x = None -> jb_len b1 = 0) ->
     exists b2 z, flush mem_write fuel b1 = Ok (b2, z) /\ 
       ((x = None /\ z = None /\ b2 = b1 /\ llen (vtext p 0 v) <= llen mem /\
         mo_out (jb_out b1) = llen (vtext p 0 v) /\ mo_mem (jb_out b1) = vtext p 0 v ++ drop (llen (vtext p 0 v)) mem) \/
        (x = Some LengthError /\ llen mem < llen (vtext p 0 v)))).
  { intros b1 x P L. destruct x as [e|].
    - destruct P as (B & _ & -> & Hb & _). destruct (fl b1 B ltac:(cbv beta; lia)) as (b2 & z & Rz & _).
      exists b2, z. split; [exact Rz|]. right. split; [reflexivity|]. unfold beyond in Hb. rewrite N0, llen_nil in Hb. lia.
    - specialize (L eq_refl). exists b1, None. split.
      + unfold flush. rewrite L. reflexivity.
      + left. destruct P as ((B1 & B2 & B3) & _ & X). unfold btext in X at 1. rewrite L, take_0, app_nil_r, N0 in X.
        cbn [app] in X. destruct B3 as (I1 & I2 & I3). unfold mgot in X.
        assert (Q : mo_out (jb_out b1) = llen (vtext p 0 v)) by (rewrite <- X, llen_take; lia).
        repeat split; auto; try lia. rewrite <- Q, <- I3, <- X at 1. symmetry. apply take_app_drop. }
  assert (Mid : exists b1 x, match y with Some e => Ok (b, Some e) | None => flush mem_write fuel b end = Ok (b1, x) /\
     bpushed mgot (minv mem) (fun _ => O) (Some (llen mem)) LengthError (jb_new (MOutput mem 0)) b1 x (vtext p 0 v) /\
     (x = None -> jb_len b1 = 0)).
  { rewrite TT in P1. destruct P1 as [(-> & P1)|(e & -> & P1)].
    - pose proof P1 as (B & _). destruct (fl b B ltac:(cbv beta; lia)) as (b1 & x & R2 & P2 & Q & _). exists b1, x.
      split; [exact R2|]. split; [|exact Q]. rewrite <- (app_nil_r (vtext p 0 v)).
      exact (bpushed_trans _ _ _ _ _ _ _ _ _ _ _ P1 P2).
    - exists b, (Some e). split; [reflexivity|]. split; [exact P1|congruence]. }
  destruct Mid as (b1 & x & R2 & P2 & L). rewrite R2. cbn [rbind].
  destruct (Fin b1 x P2 L) as (b2 & z & R3 & C). rewrite R3. cbn [rbind].
  destruct C as [(-> & -> & -> & C1 & C2 & C3)|(-> & C1)].
  - split; [|lia]. intros _. destruct (jb_out b1) as [m o]. cbn [mo_mem mo_out] in *. subst. eexists. split; reflexivity.
  - split; [lia|]. intros _. destruct z; [right; reflexivity|left; reflexivity].
Qed.
Print Assumptions C30_serialize_memory_partial.

Example C30_serialize_case :
  serialize_mem 600 jdefault (s2b "..........") (VList [VInt 1; VInt 22]) = Ok (MOutput (s2b "[1,22]....") 6).
Proof. vm_compute. reflexivity. Qed.

(** When the text does not fit and was still buffered, the exception is followed by
    another one from the emitter's destructor and the program is terminated. *)
Theorem C30_serialize_small_buffer_refuted : exists v mem, jfits jdefault 0 v /\
  forall fuel, (520 <= fuel)%nat -> serialize_mem fuel jdefault mem v = Abort.
Proof.
  exists (VInt 12), (s2b "."). split; [reflexivity|]. intros fuel Hf. do 8 (destruct fuel as [|fuel]; [lia|]).
  vm_compute. reflexivity.
Qed.
Print Assumptions C30_serialize_small_buffer_refuted.
