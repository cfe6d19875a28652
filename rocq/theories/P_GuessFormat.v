(** Property C35: format guessing does not consume input. *)
From Verif Require Import Base ParserInput ParserInputProofs GuessFormat.
Open Scope N_scope.

(** ** Specification *)

(** The bytes an input will still deliver. *)
Definition unread (i : pinput) : bytes :=
  match i with InMem m => drop (mi_off m) (mi_data m) | InStream s => pending s end.

(** A usable input: memory within bounds, or a stream whose reads are short only
    at its end. *)
Definition usable (i : pinput) : Prop :=
  match i with
  | InMem m => mi_off m <= llen (mi_data m)
  | InStream s => wf s /\ small s /\ full_reads (si_src s) /\ (si_eof s = true -> src_data (si_src s) = [])
  end.

(** What the first significant character says. *)
Definition guess_of (cfg : config) (c : ascii) : option format :=
  if aeqb c "<" then (if enable_xml cfg then Some FXml else None)
  else Some (if enable_yaml cfg then FYaml else FJson).

(** White space: tab, newline, vertical tab, form feed, carriage return, space. *)
Definition white (c : ascii) : Prop := In (bval c) [9; 10; 11; 12; 13; 32].

(** ** Proofs *)

Lemma is_space_white c : is_space c = true <-> white c.
Proof.
  assert (K : forallb (fun c => Bool.eqb (is_space c) (existsb (N.eqb (bval c)) [9; 10; 11; 12; 13; 32])) all_bytes = true)
    by (vm_compute; reflexivity).
  pose proof (sweep _ K c) as S. cbv beta in S. apply Bool.eqb_prop in S. rewrite S, existsb_exists.
  unfold white. split.
  - intros (x & H & E). apply N.eqb_eq in E. rewrite E. exact H.
  - intros H. exists (bval c). split; [exact H|apply N.eqb_refl].
Qed.

Definition in_ptr (i : pinput) : N := match i with InMem m => mi_off m | InStream s => si_off s end.
Definition in_len (i : pinput) : N := match i with InMem m => llen (mi_data m) - mi_off m | InStream s => si_num s end.

Lemma getptr_off f s n p l s1 : si_getptr f s n = Ok ((Some p, l), s1) -> p = si_off s1.
Proof.
  unfold si_getptr. destruct (si_eof s).
  - destruct (si_num s =? 0); intros [= <- <- <-]; reflexivity.
  - destruct ((n <=? si_num s) && (0 <? si_num s))%bool; [intros [= <- <- <-]; reflexivity|].
    destruct (make_room s n) as [sa| | | |]; try discriminate. cbn [rbind].
    destruct (fill_loop f sa n) as [sb| | | |]; try discriminate. cbn [rbind].
    destruct ((si_num sb =? 0) && si_eof sb)%bool; intros [= <- <- <-]; reflexivity.
Qed.

Lemma in_getptr_spec i n : usable i -> n <= 2^31 -> unread i <> [] ->
  exists i', in_getptr i n = Ok ((Some (in_ptr i'), in_len i'), i') /\ usable i' /\ unread i' = unread i /\
    0 < in_len i' /\ (n <= in_len i' \/ in_len i' = llen (unread i)) /\ in_len i' <= llen (unread i').
Proof.
  intros U Hn NE. destruct i as [m|s].
  - cbn [usable unread in_getptr] in *. unfold mi_getptr.
    assert (0 < llen (mi_data m) - mi_off m).
    { pose proof (llen_drop (mi_off m) (mi_data m)) as L.
      destruct (drop (mi_off m) (mi_data m)); [congruence|]. unfold llen in L at 1. cbn in L. lia. }
    destruct (llen (mi_data m) <? mi_off m) eqn:E; [lia|]. cbn [rbind].
    destruct (0 <? llen (mi_data m) - mi_off m) eqn:E2; [|lia].
    exists (InMem m). cbn [in_ptr in_len unread usable]. rewrite llen_drop. repeat split; lia.
  - cbn [usable unread in_getptr] in *. destruct U as (W & Sm & FR & FE).
    destruct (getptr_spec s n 3 W Sm Hn ltac:(lia))
      as (r & s1 & v & E1 & V1 & W1 & S1 & P1 & F1 & N1 & VN & VS & D1 & X1).
    rewrite E1. cbn [rbind]. specialize (X1 FR FE).
    assert (PL : llen (pending s1) = si_num s1 + llen (src_data (si_src s1))).
    { unfold pending. rewrite llen_app, view_len by exact W1. reflexivity. }
    destruct v as [b|].
    + destruct (VS b eq_refl) as [Eb NB]. exists (InStream s1). cbn [in_ptr in_len unread usable].
      assert (Pos : 0 < si_num s1).
      { destruct (N.eq_dec (si_num s1) 0) as [Z|Z]; [|lia]. exfalso. apply NB. rewrite Eb.
        apply llen_0. rewrite view_len; [exact Z|exact W1]. }
      assert (Er : r = (Some (si_off s1), si_num s1)).
      { destruct r as [p l]. cbn [snd] in N1. subst l. unfold si_view in V1. cbn [fst snd] in V1.
        destruct p as [p|]; [|discriminate]. rewrite (getptr_off _ _ _ _ _ _ E1). reflexivity. }
      rewrite Er. split; [reflexivity|]. split; [repeat split; auto; apply W1|].
      split; [exact P1|]. split; [exact Pos|]. split; [|lia].
      destruct D1 as [D1|[D1 _]]; [|left; exact D1]. right.
      rewrite <- P1, PL, (X1 D1). cbn. lia.
    + exfalso. destruct (VN eq_refl) as [Z Ee]. apply NE. rewrite <- P1. apply llen_0.
      rewrite PL, (X1 Ee), Z. reflexivity.
Qed.

Lemma nth_error_drop {A} (l : list A) a b : nth_error (drop a l) (N.to_nat b) = nth_error l (N.to_nat (a + b)).
Proof.
  unfold drop. rewrite N2Nat.inj_add. generalize (N.to_nat a) (N.to_nat b). clear. intros a. revert l.
  induction a as [|a IH]; intros [|x l] b; cbn; try reflexivity; [destruct b; reflexivity|apply IH].
Qed.

Lemma nth_error_take {A} (l : list A) n k : k < n -> nth_error (take n l) (N.to_nat k) = nth_error l (N.to_nat k).
Proof.
  intros H. unfold take. assert (K : (N.to_nat k < N.to_nat n)%nat) by lia. revert K.
  generalize (N.to_nat n) (N.to_nat k). clear. intros n. revert l.
  induction n as [|n IH]; intros [|x l] [|k] K; cbn; try lia; try reflexivity. apply IH. lia.
Qed.

Lemma in_peek_spec i k : usable i -> k < in_len i ->
  in_peek i (in_ptr i) k = match nth_error (unread i) (N.to_nat k) with Some c => Ok c | None => UB end.
Proof.
  intros U H. unfold in_peek. destruct i as [m|s]; cbn [in_ptr in_len unread usable] in *.
  - rewrite nth_error_drop. reflexivity.
  - destruct U as (W & _). pose proof (view_len s W) as VL. unfold pending.
    rewrite nth_error_app1 by (unfold llen in VL; lia). unfold view.
    rewrite nth_error_take by exact H. rewrite nth_error_drop. reflexivity.
Qed.

Lemma guess_loop_spec cfg c rest : is_space c = false -> forall blanks2 blanks1 i fuel,
  usable i -> forallb is_space blanks2 = true -> unread i = blanks1 ++ blanks2 ++ c :: rest ->
  in_len i <= llen (unread i) ->
  llen (blanks1 ++ blanks2) < 2^31 -> (List.length blanks2 < fuel)%nat ->
  match guess_of cfg c with
  | Some f => exists i', guess_loop fuel cfg i (in_ptr i) (in_len i) (llen blanks1) = Ok (f, i') /\
              unread i' = unread i /\ usable i'
  | None => guess_loop fuel cfg i (in_ptr i) (in_len i) (llen blanks1) = Throw RuntimeError
  end.
Proof.
  intros Hc. induction blanks2 as [|b blanks2 IH]; intros blanks1 i fuel U B E L S F;
    (destruct fuel as [|fuel]; [cbn in F; lia|]);
    set (k := llen blanks1) in *;
    rewrite llen_app in S; fold k in S.
  - cbn [guess_loop].
    assert (Step : exists i1, (if in_len i <=? k
        then do (r, inp') <- in_getptr i (wrap32 (k + 1));
             match fst r with None => Throw RuntimeError | Some p' => Ok (p', snd r, inp') end
        else Ok (in_ptr i, in_len i, i)) = Ok (in_ptr i1, in_len i1, i1) /\ usable i1 /\ unread i1 = unread i /\
        k < in_len i1 /\ in_len i1 <= llen (unread i1)).
    { destruct (in_len i <=? k) eqn:C.
      - assert (Wr : wrap32 (k + 1) = k + 1) by (unfold wrap32; apply N.mod_small; lia). rewrite Wr.
        assert (NE : unread i <> []) by (rewrite E; destruct blanks1; discriminate).
        destruct (in_getptr_spec i (k + 1) U ltac:(lia) NE) as (i1 & G & U1 & R1 & Pos & Enough & Le).
        rewrite G. cbn [rbind fst snd]. exists i1. repeat split; auto.
        destruct Enough as [Enough|Enough]; [lia|]. rewrite Enough, E, llen_app. fold k. unfold llen. cbn. lia.
      - exists i. repeat split; auto. lia. }
    destruct Step as (i1 & -> & U1 & R1 & K1 & L1). cbn [rbind].
    rewrite in_peek_spec by assumption. rewrite R1, E. cbn [app].
    replace (N.to_nat k) with (List.length blanks1) by (unfold k, llen; lia).
    rewrite nth_error_app2, Nat.sub_diag by lia. cbn [nth_error rbind]. rewrite Hc. cbn [negb].
    unfold guess_of. cbn [app] in E. rewrite <- E, <- R1.
    destruct (aeqb c "<"); [destruct (enable_xml cfg)|]; try reflexivity; exists i1; repeat split; auto.
  - cbn [guess_loop]. cbn [forallb] in B. apply andb_true_iff in B as [B1 B2].
    assert (SB : llen (b :: blanks2) = 1 + llen blanks2) by (unfold llen; cbn [List.length]; lia).
    assert (Step : exists i1, (if in_len i <=? k
        then do (r, inp') <- in_getptr i (wrap32 (k + 1));
             match fst r with None => Throw RuntimeError | Some p' => Ok (p', snd r, inp') end
        else Ok (in_ptr i, in_len i, i)) = Ok (in_ptr i1, in_len i1, i1) /\ usable i1 /\ unread i1 = unread i /\
        k < in_len i1 /\ in_len i1 <= llen (unread i1)).
    { destruct (in_len i <=? k) eqn:C.
      - assert (Wr : wrap32 (k + 1) = k + 1) by (unfold wrap32; apply N.mod_small; lia). rewrite Wr.
        assert (NE : unread i <> []) by (rewrite E; destruct blanks1; discriminate).
        destruct (in_getptr_spec i (k + 1) U ltac:(lia) NE) as (i1 & G & U1 & R1 & Pos & Enough & Le).
        rewrite G. cbn [rbind fst snd]. exists i1. repeat split; auto.
        destruct Enough as [Enough|Enough]; [lia|]. rewrite Enough, E, !llen_app. fold k. lia.
      - exists i. repeat split; auto. lia. }
    destruct Step as (i1 & -> & U1 & R1 & K1 & L1). cbn [rbind].
    rewrite in_peek_spec by assumption. rewrite R1, E. cbn [app].
    replace (N.to_nat k) with (List.length blanks1) by (unfold k, llen; lia).
    rewrite nth_error_app2, Nat.sub_diag by lia. cbn [nth_error rbind]. rewrite B1. cbn [negb].
    assert (Wr : wrap32 (k + 1) = llen (blanks1 ++ [b])).
    { rewrite llen_app. unfold wrap32. rewrite N.mod_small; [reflexivity|lia]. }
    rewrite Wr.
    specialize (IH (blanks1 ++ [b]) i1 fuel U1 B2).
    rewrite R1, E in IH. rewrite <- app_assoc in IH. cbn [app] in IH. specialize (IH eq_refl).
    rewrite R1, E in L1. cbn [app] in L1. specialize (IH L1).
    assert (L1b : llen [b] = 1) by reflexivity.
    assert (SS : llen ((blanks1 ++ [b]) ++ blanks2) < 2^31) by (rewrite !llen_app, L1b; fold k; lia).
    specialize (IH SS ltac:(cbn in F; lia)).
    destruct (guess_of cfg c); [|exact IH].
    destruct IH as (i' & G & R & U'). exists i'. auto.
Qed.

(** C35.  If the input has a significant (non-blank) character, the guess is the
    one that character calls for, and afterwards the input delivers exactly the
    bytes it would have delivered before. *)
Theorem C35_guess_format_partial : forall (cfg : config) (i : pinput) (blanks rest : bytes) (c : ascii) (fuel : nat),
  usable i -> unread i = blanks ++ c :: rest ->
  Forall white blanks -> ~ white c ->
  llen blanks < 2^31 -> (List.length blanks < fuel)%nat ->
  match guess_of cfg c with
  | Some f => exists i', guess_format fuel cfg i = Ok (f, i') /\ unread i' = unread i /\ usable i'
  | None => guess_format fuel cfg i = Throw RuntimeError
  end.
Proof.
  intros cfg i blanks rest c fuel U E B0 C0 S F. unfold guess_format.
  assert (B : forallb is_space blanks = true).
  { apply forallb_forall. intros x Hx. apply is_space_white. revert x Hx. apply Forall_forall. exact B0. }
  assert (C : is_space c = false).
  { destruct (is_space c) eqn:X; [|reflexivity]. apply is_space_white in X. contradiction. }
  assert (NE : unread i <> []) by (rewrite E; destruct blanks; discriminate).
  destruct (in_getptr_spec i 0 U ltac:(lia) NE) as (i1 & G & U1 & R1 & Pos & _ & Le).
  rewrite G. cbn [rbind fst snd].
  pose proof (guess_loop_spec cfg c rest C blanks [] i1 fuel U1 B) as K.
  rewrite R1, E in K. cbn [app] in K. rewrite R1, E in Le. specialize (K eq_refl Le S F).
  rewrite E. exact K.
Qed.
Print Assumptions C35_guess_format_partial.

Example C35_case : forall cfg,
  usable (InStream (si_new 2 (Source (s2b "   <plist/>") []))) /\
  (do (f, i) <- guess_format 20 (Config true true) (InStream (si_new 2 (Source (s2b "   <plist/>") []))); Ok (f, unread i))
  = Ok (FXml, s2b "   <plist/>") /\
  guess_of cfg "{" = Some (if enable_yaml cfg then FYaml else FJson).
Proof.
  intros cfg. split; [|split; [vm_compute; reflexivity|reflexivity]].
  cbn. repeat split; try (vm_compute; congruence). constructor.
Qed.

(** The empty memory input is taken as YAML. *)
Example C35_empty_memory :
  (do (f, _) <- guess_format 20 (Config true true) (InMem (MInput [] 0)); Ok f) = Ok FYaml.
Proof. vm_compute; reflexivity. Qed.

(** Refuted for an entirely blank memory input: GetPtr keeps answering with the
    same two bytes, and the loop reads the byte after the caller's buffer. *)
Theorem C35_blank_memory_refuted : exists i : pinput,
  usable i /\ guess_format 20 (Config true true) i = UB.
Proof. exists (InMem (MInput (s2b "  ") 0)). split; [vm_compute; discriminate|vm_compute; reflexivity]. Qed.
Print Assumptions C35_blank_memory_refuted.

(** Refutation of the unrestricted claim: on a stream whose unread part is blank
    the guess reads one byte beyond the data, which may be an already released
    byte, so the answer is not determined by the unread input. *)
Theorem C35_guess_format_refuted : exists (i1 i2 : pinput) (f1 f2 : format) (j1 j2 : pinput),
  usable i1 /\ usable i2 /\ unread i1 = unread i2 /\
  guess_format 20 (Config true true) i1 = Ok (f1, j1) /\
  guess_format 20 (Config true true) i2 = Ok (f2, j2) /\ f1 <> f2.
Proof.
  set (i1 := InStream (SInput (s2b " < x") 1 0 true (Source [] []))).
  set (i2 := InStream (SInput (s2b " abc") 1 0 true (Source [] []))).
  exists i1, i2, FXml, FYaml. eexists. eexists.
  split; [cbn; repeat split; try (vm_compute; congruence); constructor|].
  split; [cbn; repeat split; try (vm_compute; congruence); constructor|].
  split; [reflexivity|]. split; [vm_compute; reflexivity|]. split; [vm_compute; reflexivity|discriminate].
Qed.
Print Assumptions C35_guess_format_refuted.
