(** The buffering layer of the JSON emitter delivers exactly the text handed to it. *)
From Verif Require Import Base CNum Float FloatText Value Emit Base64 ParserInput ParserInputProofs
  JSONEmitter EmitterOutput P_EmitterOutput.
Open Scope N_scope.

(** The text a buffering call stands for. *)
Definition prim_text (p : jparams) (c : prim) : bytes :=
  match c with
  | PRaw t => take (wrap32 (llen t)) t
  | PIndent d => if j_pretty p then bchr 10 :: spaces (wrap32 (d * j_indent p)) else []
  | PFlush => []
  end.
Definition prims_text (p : jparams) (cs : list prim) : bytes := flat_map (prim_text p) cs.

Lemma prims_text_app p a b : prims_text p (a ++ b) = prims_text p a ++ prims_text p b.
Proof. unfold prims_text. apply flat_map_app. Qed.

(** An output that takes what it is given, possibly a part at a time, until an
    optional limit on the total is reached. *)
Section Sink.
  Context {W : Type} (write : W -> bytes -> wres W).
  Variables (got : W -> bytes) (inv : W -> Prop) (budget : W -> nat) (limit : option N) (err : exn) (maxw : N).
  Definition beyond (n : N) : Prop := match limit with Some L => L < n | None => False end.
  Hypothesis maxw_ok : 512 <= maxw < 2^32.
  Hypothesis write_ok : forall w data, inv w -> data <> [] -> llen data <= maxw ->
    match write w data with
    | WOk n w' => n <= llen data /\ got w' = got w ++ take n data /\ inv w' /\
                  (budget w' <= budget w)%nat /\ (n = 0 -> (budget w' < budget w)%nat)
    | WThrow e w' => e = err /\ got w' = got w /\ inv w' /\ (budget w' <= budget w)%nat /\
                     beyond (llen (got w) + llen data)
    | WUB => False
    end.

  Lemma beyond_le a b : a <= b -> beyond a -> beyond b.
  Proof using. clear maxw_ok. unfold beyond. destruct limit; [lia|tauto]. Qed.

  (** The result of pushing [t]: all of it is delivered, or the output refused a
      part of it. *)
  Definition pushed (w w' : W) (x : option exn) (t : bytes) : Prop :=
    inv w' /\ (budget w' <= budget w)%nat /\
    match x with
    | None => got w' = got w ++ t
    | Some e => e = err /\ (exists k, got w' = got w ++ take k t) /\ beyond (llen (got w) + llen t)
    end.

  Lemma llen_pos (d : bytes) : 0 < llen d -> d <> [].
  Proof using. clear maxw_ok. destruct d; [cbn; lia|discriminate]. Qed.

  Lemma write_loop_ok : forall fuel w data num, inv w -> num <= llen data -> llen data <= maxw ->
    (budget w + N.to_nat (llen data - num) < fuel)%nat ->
    exists w' x, write_loop write fuel w data num = Ok (w', x) /\ pushed w w' x (drop num data).
  Proof.
    induction fuel as [|f IH]; intros w data num I Hn Hd Hf; [lia|].
    cbn [write_loop]. destruct (num <? llen data) eqn:E.
    - assert (Hl : llen (drop num data) = llen data - num) by apply llen_drop.
      assert (N0 : drop num data <> []) by (apply llen_pos; lia).
      pose proof (write_ok w (drop num data) I N0 ltac:(lia)) as S.
      destruct (write w (drop num data)) as [n w'|e w'|]; [| |tauto].
      + destruct S as (S1 & S2 & S3 & S4 & S5).
        assert (Wr : wrap32 (num + n) = num + n) by (unfold wrap32; apply N.mod_small; lia).
        rewrite Wr.
        assert (Hf' : (budget w' + N.to_nat (llen data - (num + n)) < f)%nat).
        { destruct (N.eq_dec n 0) as [->|]; [pose proof (S5 eq_refl); lia|lia]. }
        destruct (IH w' data (num + n) S3 ltac:(lia) Hd Hf') as (w'' & x & R & P1 & P2 & P3).
        exists w'', x. split; [exact R|]. split; [exact P1|]. split; [lia|].
        assert (D : drop num data = take n (drop num data) ++ drop (num + n) data).
        { rewrite <- (drop_drop num n). symmetry. apply take_app_drop. }
        destruct x as [e|].
        * destruct P3 as (Pe & [k Pk] & Pb). split; [exact Pe|]. split.
          -- rewrite D. exists (llen (take n (drop num data)) + k). rewrite Pk, S2.
             set (A := take n (drop num data)). clearbody A.
             rewrite take_app, (take_all (llen A + k) A) by lia.
             replace (llen A + k - llen A) with k by lia.
             now rewrite <- app_assoc.
          -- eapply beyond_le; [|exact Pb]. rewrite S2, llen_app, llen_take, !llen_drop. lia.
        * rewrite P3, S2, <- app_assoc. f_equal. now rewrite <- D.
      + destruct S as (S1 & S2 & S3 & S4 & S5). exists w', (Some e). split; [reflexivity|].
        split; [exact S3|]. split; [exact S4|]. split; [exact S1|]. split; [|exact S5].
        exists 0. rewrite take_0, app_nil_r. exact S2.
    - assert (num = llen data) by lia. subst num.
      exists w, None. split; [reflexivity|]. split; [exact I|]. split; [lia|].
      rewrite drop_all by lia. now rewrite app_nil_r.
  Qed.

  Lemma spaces_len n : llen (spaces n) = n.
  Proof using. clear maxw_ok. unfold llen, spaces. rewrite repeat_length. lia. Qed.

  Lemma take_spaces k n : k <= n -> take k (spaces n) = spaces k.
  Proof using. clear maxw_ok.
    intros H. unfold take, spaces. 
    replace (N.to_nat n) with (N.to_nat k + N.to_nat (n - k))%nat by lia.
    rewrite repeat_app, firstn_app, repeat_length, Nat.sub_diag, firstn_O, app_nil_r.
    rewrite firstn_all2; [reflexivity|rewrite repeat_length; lia].
  Qed.
  Lemma spaces_app a b : spaces a ++ spaces b = spaces (a + b).
  Proof using. clear maxw_ok. unfold spaces. rewrite <- repeat_app. f_equal. lia. Qed.

  Lemma indent_loop_ok : forall fuel w mem pos indent num, inv w -> num <= indent -> indent < 2^32 ->
    take 128 (drop pos mem) = spaces 128 ->
    (budget w + N.to_nat (indent - num) < fuel)%nat ->
    exists w' x, indent_loop write fuel w mem pos indent num = Ok (w', x) /\
      pushed w w' x (spaces (indent - num)).
  Proof.
    induction fuel as [|f IH]; intros w mem pos indent num I Hn Hd Hm Hf; [lia|].
    cbn [indent_loop]. destruct (num <? indent) eqn:E.
    - set (k := N.min (indent - num) 128).
      assert (T : take k (drop pos mem) = spaces k).
      { rewrite <- (take_spaces k 128) by lia. rewrite <- Hm, take_take. f_equal. lia. }
      rewrite T.
      assert (N0 : spaces k <> []) by (apply llen_pos; rewrite spaces_len; lia).
      pose proof (write_ok w (spaces k) I N0 ltac:(rewrite spaces_len; lia)) as S.
      destruct (write w (spaces k)) as [n w'|e w'|]; [| |tauto].
      + destruct S as (S1 & S2 & S3 & S4 & S5). rewrite spaces_len in S1.
        assert (Wr : wrap32 (num + n) = num + n) by (unfold wrap32; apply N.mod_small; lia).
        rewrite Wr.
        assert (Hf' : (budget w' + N.to_nat (indent - (num + n)) < f)%nat).
        { destruct (N.eq_dec n 0) as [->|]; [pose proof (S5 eq_refl); lia|lia]. }
        destruct (IH w' mem pos indent (num + n) S3 ltac:(lia) Hd Hm Hf') as (w'' & x & R & P1 & P2 & P3).
        exists w'', x. split; [exact R|]. split; [exact P1|]. split; [lia|].
        rewrite take_spaces in S2 by lia.
        assert (D : spaces (indent - num) = spaces n ++ spaces (indent - (num + n))).
        { rewrite spaces_app. f_equal. lia. }
        destruct x as [e|].
        * destruct P3 as (Pe & [j Pk] & Pb). split; [exact Pe|]. split.
          -- exists (n + j). rewrite Pk, S2, D. 
             rewrite take_app, spaces_len. rewrite (take_all _ (spaces n)) by (rewrite spaces_len; lia).
             replace (n + j - n) with j by lia.
             now rewrite <- app_assoc.
          -- eapply beyond_le; [|exact Pb]. rewrite S2, llen_app, !spaces_len. lia.
        * rewrite P3, S2, <- app_assoc. f_equal. now rewrite <- D.
      + destruct S as (S1 & S2 & S3 & S4 & S5). exists w', (Some e). split; [reflexivity|].
        split; [exact S3|]. split; [exact S4|]. split; [exact S1|]. split.
        * exists 0. rewrite take_0, app_nil_r. exact S2.
        * eapply beyond_le; [|exact S5]. rewrite !spaces_len. lia.
    - assert (num = indent) by lia. subst num.
      exists w, None. split; [reflexivity|]. split; [exact I|]. split; [lia|].
      rewrite N.sub_diag. cbn. now rewrite app_nil_r.
  Qed.

  Notation jb := (@jbuf W).
  (** The buffer is within its 512 bytes. *)
  Definition bwf (b : jb) : Prop := llen (jb_mem b) = 512 /\ jb_len b <= 512 /\ inv (jb_out b).
  (** Delivered and still buffered. *)
  Definition btext (b : jb) : bytes := got (jb_out b) ++ take (jb_len b) (jb_mem b).

  (** Pushing [t] into the buffered output. *)
  Definition bpushed (b b' : jb) (x : option exn) (t : bytes) : Prop :=
    bwf b' /\ (budget (jb_out b') <= budget (jb_out b))%nat /\
    match x with
    | None => btext b' = btext b ++ t
    | Some e => e = err /\ beyond (llen (btext b) + llen t) /\
                (exists k, got (jb_out b') = take k (btext b ++ t))
    end.

  Lemma flush_ok fuel b : bwf b -> (budget (jb_out b) + 512 < fuel)%nat ->
    exists b' x, flush write fuel b = Ok (b', x) /\ bpushed b b' x [] /\ (x = None -> jb_len b' = 0) /\
      (x <> None -> jb_len b' = jb_len b /\ jb_mem b' = jb_mem b).
  Proof.
    intros (M & L & I) Hf. unfold flush. destruct (0 <? jb_len b) eqn:E.
    - set (d := take (jb_len b) (jb_mem b)).
      assert (Ld : llen d = jb_len b) by (unfold d; rewrite llen_take; lia).
      destruct (write_loop_ok fuel (jb_out b) d 0 I ltac:(lia) ltac:(lia) ltac:(lia)) as (w' & x & R & P1 & P2 & P3).
      rewrite R. cbn [rbind]. rewrite drop_0 in P3. destruct x as [e|].
      + eexists _, _. split; [reflexivity|]. split; [|split; [congruence|intros _; split; reflexivity]].
        split; [split; [exact M|split; [exact L|exact P1]]|]. cbn [jb_out]. split; [exact P2|].
        destruct P3 as (Pe & [k Pk] & Pb). split; [exact Pe|]. split.
        * eapply beyond_le; [|exact Pb]. unfold btext. fold d. rewrite llen_app. cbn. lia.
        * exists (llen (got (jb_out b)) + k). rewrite app_nil_r. unfold btext. fold d. rewrite Pk.
          rewrite take_app. rewrite (take_all _ (got _)) by lia.
          f_equal. f_equal. lia.
      + eexists _, _. split; [reflexivity|]. split; [|split; [intros _; reflexivity|congruence]].
        split; [split; [exact M|split; [cbn; lia|exact P1]]|]. cbn [jb_out]. split; [exact P2|].
        unfold btext. cbn [jb_out jb_len jb_mem]. rewrite take_0, P3. fold d. now rewrite !app_nil_r.
    - exists b, None. split; [reflexivity|]. split; [|split; [intros _; lia|congruence]].
      split; [split; auto|]. split; [lia|]. now rewrite app_nil_r.
  Qed.

  Lemma bpushed_trans b b' b'' x t u : bpushed b b' None t -> bpushed b' b'' x u -> bpushed b b'' x (t ++ u).
  Proof using. clear maxw_ok write_ok write.
    intros (A1 & A2 & A3) (B1 & B2 & B3). split; [exact B1|]. split; [lia|].
    destruct x as [e|].
    - destruct B3 as (Be & Bb & [k Bk]). split; [exact Be|]. split.
      + eapply beyond_le; [|exact Bb]. rewrite A3, !llen_app. lia.
      + exists k. rewrite Bk, A3, <- app_assoc. reflexivity.
    - rewrite B3, A3. now rewrite app_assoc.
  Qed.

  Lemma bpushed_more b b' e t u : bpushed b b' (Some e) t -> bpushed b b' (Some e) (t ++ u).
  Proof using. clear maxw_ok write_ok write.
    intros (A1 & A2 & A3 & A4 & [k A5]). split; [exact A1|]. split; [exact A2|]. split; [exact A3|]. split.
    - eapply beyond_le; [|exact A4]. rewrite llen_app. lia.
    - exists (N.min k (llen (btext b ++ t))). rewrite A5, app_assoc.
      rewrite (take_app _ (btext b ++ t) u).
      replace (N.min k (llen (btext b ++ t)) - llen (btext b ++ t)) with 0 by lia.
      rewrite take_0, app_nil_r. destruct (N.le_gt_cases k (llen (btext b ++ t))).
      + f_equal. lia.
      + rewrite !take_all by lia. reflexivity.
  Qed.

  Lemma append_buf_ok b t : bwf b -> jb_len b + llen t <= 512 ->
    exists b', append_buf b t = Ok (b', None) /\ bpushed b b' None t.
  Proof.
    intros (M & L & I) H. unfold append_buf. destruct (llen (jb_mem b) <? jb_len b + llen t) eqn:E; [lia|].
    destruct (store_append (jb_mem b) (jb_len b) t ltac:(lia)) as [S1 S2].
    eexists. split; [reflexivity|]. split; [|split; [cbn; lia|]].
    - split; [cbn [jb_mem]; rewrite buf_store_len; lia|]. split; [exact H|exact I].
    - unfold btext. cbn [jb_out jb_len jb_mem]. now rewrite S1, app_assoc.
  Qed.

  Lemma flush_if_ok fuel (c : bool) b : bwf b -> (budget (jb_out b) + 512 < fuel)%nat ->
    exists b' x, (if c then flush write fuel b else Ok (b, None)) = Ok (b', x) /\ bpushed b b' x [] /\
      (x = None -> if c then jb_len b' = 0 else b' = b).
  Proof.
    intros H Hf. destruct c.
    - destruct (flush_ok fuel b H Hf) as (b' & x & R & P & Q & _). exists b', x. auto.
    - exists b, None. split; [reflexivity|]. split; [|auto]. destruct H as (? & ? & ?).
      split; [repeat split; auto|]. split; [lia|]. now rewrite app_nil_r.
  Qed.

  Lemma wrap32_le n : wrap32 n <= n.
  Proof using. clear maxw_ok. unfold wrap32. destruct (N.eq_dec n 0) as [->|]; [reflexivity|]. apply N.mod_le. lia. Qed.
  Lemma wrap32_lt n : wrap32 n < 2^32.
  Proof using. clear maxw_ok. unfold wrap32. apply N.mod_upper_bound. lia. Qed.

  Lemma emit_raw_ok fuel b t : bwf b -> wrap32 (llen t) <= maxw ->
    (budget (jb_out b) + 512 < fuel)%nat -> (budget (jb_out b) + N.to_nat (llen t) < fuel)%nat ->
    exists b' x, emit_raw write fuel b t = Ok (b', x) /\ bpushed b b' x (take (wrap32 (llen t)) t).
  Proof.
    intros B Hmw Hf1 Hf2. unfold emit_raw.
    assert (L : llen (take (wrap32 (llen t)) t) = wrap32 (llen t)).
    { rewrite llen_take. pose proof (wrap32_le (llen t)). lia. }
    pose proof (wrap32_le (llen t)) as Wl. pose proof (wrap32_lt (llen t)) as Wu.
    set (u := take (wrap32 (llen t)) t) in *.
    destruct (128 <? llen u) eqn:E.
    - destruct (flush_ok fuel b B Hf1) as (b1 & x & R & P & Q & _). rewrite R. cbn [rbind].
      destruct x as [e|].
      + eexists _, _. split; [reflexivity|]. change u with ([] ++ u). now apply bpushed_more.
      + specialize (Q eq_refl).
        pose proof P as Q'. destruct Q' as ((M & Lb & I) & Bg & T).
        destruct (write_loop_ok fuel (jb_out b1) u 0 I ltac:(lia) ltac:(lia) ltac:(lia)) as (w' & x & R2 & P1 & P2 & P3).
        rewrite R2. cbn [rbind]. eexists _, _. split; [reflexivity|]. 
        change u with ([] ++ u). refine (bpushed_trans _ _ _ _ _ _ P _).
        rewrite drop_0 in P3.
        split; [split; [exact M|split; [exact Lb|exact P1]]|]. split; [exact P2|]. unfold btext.
        destruct x as [e|]; cbn [jb_out jb_len jb_mem]; rewrite Q, take_0, !app_nil_r.
        * destruct P3 as (Pe & [k Pk] & Pb). split; [exact Pe|]. split; [exact Pb|].
          exists (llen (got (jb_out b1)) + k). rewrite Pk, take_app. rewrite (take_all _ (got _)) by lia.
          f_equal. f_equal. lia.
        * exact P3.
    - destruct (flush_if_ok fuel (512 <? llen u + jb_len b) b B Hf1) as (b1 & x & R & P & Q).
      rewrite R. cbn [rbind]. destruct x as [e|].
      + eexists _, _. split; [reflexivity|]. change u with ([] ++ u). now apply bpushed_more.
      + specialize (Q eq_refl). pose proof P as Q'. destruct Q' as ((M & Lb & I) & Bg & T).
        destruct (append_buf_ok b1 u) as (b2 & R2 & P2).
        * repeat split; auto.
        * destruct (512 <? llen u + jb_len b) eqn:E2; [lia|subst b1; lia].
        * exists b2, None. split; [exact R2|]. change u with ([] ++ u). exact (bpushed_trans _ _ _ _ _ _ P P2).
  Qed.

  Lemma emit_indent_ok fuel p b d : bwf b ->
    (budget (jb_out b) + 512 < fuel)%nat -> (budget (jb_out b) + N.to_nat (wrap32 (d * j_indent p)) < fuel)%nat ->
    exists b' x, emit_indent write fuel p b d = Ok (b', x) /\ bpushed b b' x (prim_text p (PIndent d)).
  Proof.
    intros B Hf1 Hf2. unfold emit_indent. cbn [prim_text]. destruct (j_pretty p); cbn [negb].
    2: { exists b, None. split; [reflexivity|]. split; [exact B|]. split; [lia|]. now rewrite app_nil_r. }
    pose proof (wrap32_lt (d * j_indent p)) as Wu.
    set (n := wrap32 (d * j_indent p)) in *. clearbody n.
    destruct (emit_raw_ok fuel b [bchr 10] B ltac:(cbn; lia) Hf1 ltac:(cbn; lia)) as (b1 & x & R & P).
    rewrite R. cbn [rbind]. change (take (wrap32 (llen [bchr 10])) [bchr 10]) with [bchr 10] in P.
    change (bchr 10 :: spaces n) with ([bchr 10] ++ spaces n).
    destruct x as [e|].
    { eexists _, _. split; [reflexivity|]. now apply bpushed_more. }
    pose proof P as Q'. destruct Q' as (B1 & Bg & _).
    destruct (128 <? n) eqn:E.
    - destruct (flush_ok fuel b1 B1 ltac:(lia)) as (b2 & x & R2 & P2 & Q2 & _). rewrite R2. cbn [rbind].
      destruct x as [e|].
      { eexists _, _. split; [reflexivity|].
        refine (bpushed_trans _ _ _ _ _ _ P _). change (spaces n) with ([] ++ spaces n). now apply bpushed_more. }
      specialize (Q2 eq_refl). pose proof P2 as Q'. destruct Q' as ((M & Lb & I) & Bg2 & T2).
      destruct (llen (jb_mem b2) <? jb_len b2 + 128) eqn:E2; [lia|].
      destruct (store_append (jb_mem b2) 0 (spaces 128) ltac:(rewrite spaces_len; lia)) as [S1 S2].
      rewrite Q2. rewrite spaces_len, N.add_0_l in S1. cbn [app] in S1.
      assert (S0 : take 128 (drop 0 (buf_store (jb_mem b2) 0 (spaces 128))) = spaces 128) by (rewrite drop_0; exact S1).
      destruct (indent_loop_ok fuel (jb_out b2) (buf_store (jb_mem b2) 0 (spaces 128)) 0 n 0 I ltac:(lia) Wu S0 ltac:(lia))
        as (w' & x & R3 & P4 & P5 & P6).
      rewrite R3. cbn [rbind]. eexists _, _. split; [reflexivity|].
      refine (bpushed_trans _ _ _ _ _ _ P _). change (spaces n) with ([] ++ spaces n).
      refine (bpushed_trans _ _ _ _ _ _ P2 _). rewrite N.sub_0_r in P6.
      split; [split; [cbn [jb_mem]; rewrite buf_store_len; rewrite ?spaces_len; lia|split; [cbn; lia|exact P4]]|]. 
      split; [exact P5|]. unfold btext.
      destruct x as [e|]; cbn [jb_out jb_len jb_mem]; rewrite ?Q2, ?take_0, ?app_nil_r.
      + destruct P6 as (Pe & [k Pk] & Pb). split; [exact Pe|]. split; [exact Pb|].
        exists (llen (got (jb_out b2)) + k). rewrite Pk, take_app. rewrite (take_all _ (got _)) by lia.
        f_equal. f_equal. lia.
      + exact P6.
    - destruct (flush_if_ok fuel (512 <? n + jb_len b1) b1 B1 ltac:(lia)) as (b2 & x & R2 & P2 & Q2).
      rewrite R2. cbn [rbind]. destruct x as [e|].
      + eexists _, _. split; [reflexivity|]. refine (bpushed_trans _ _ _ _ _ _ P _).
        change (spaces n) with ([] ++ spaces n). now apply bpushed_more.
      + specialize (Q2 eq_refl). pose proof P2 as Q'. destruct Q' as ((M & Lb & I) & Bg2 & T2).
        destruct (append_buf_ok b2 (spaces n)) as (b3 & R3 & P3).
        * repeat split; auto.
        * rewrite spaces_len. destruct (512 <? n + jb_len b1) eqn:E2; [lia|subst b2; lia].
        * exists b3, None. split; [exact R3|]. refine (bpushed_trans _ _ _ _ _ _ P _).
          change (spaces n) with ([] ++ spaces n). exact (bpushed_trans _ _ _ _ _ _ P2 P3).
  Qed.

  (** Enough iterations for one call. *)
  Definition prim_size (p : jparams) (c : prim) : nat :=
    match c with PRaw t => N.to_nat (llen t) | PIndent d => N.to_nat (wrap32 (d * j_indent p)) | PFlush => 0 end.

  Definition prim_fits (c : prim) : Prop := match c with PRaw t => wrap32 (llen t) <= maxw | _ => True end.

  Lemma exec_prim_ok fuel p b c : bwf b -> prim_fits c ->
    (budget (jb_out b) + 512 < fuel)%nat -> (budget (jb_out b) + prim_size p c < fuel)%nat ->
    exists b' x, exec_prim write fuel p b c = Ok (b', x) /\ bpushed b b' x (prim_text p c).
  Proof.
    destruct c as [t|d|]; intros B Hp Hf1 Hf2; cbn [exec_prim prim_text prim_size] in *.
    - now apply emit_raw_ok.
    - now apply emit_indent_ok.
    - destruct (flush_ok fuel b B Hf1) as (b' & x & R & P & _). exists b', x. auto.
  Qed.

  Fixpoint prims_size (p : jparams) (cs : list prim) : nat :=
    match cs with [] => 512 | c :: t => Nat.max (prim_size p c) (prims_size p t) end.

  Lemma prims_size_512 p cs : (512 <= prims_size p cs)%nat.
  Proof using. clear maxw_ok. induction cs; cbn [prims_size]; lia. Qed.

  Lemma exec_prims_ok fuel p : forall cs b, bwf b -> Forall prim_fits cs -> (budget (jb_out b) + prims_size p cs < fuel)%nat ->
    exists b' x, exec_prims write fuel p b cs = Ok (b', x) /\ bpushed b b' x (prims_text p cs).
  Proof.
    induction cs as [|c t IH]; intros b B Hp Hf; cbn [exec_prims prims_size] in *.
    - exists b, None. split; [reflexivity|]. split; [exact B|]. split; [lia|]. cbn. now rewrite app_nil_r.
    - pose proof (prims_size_512 p t).
      inversion Hp as [|? ? Hp1 Hp2]; subst.
      destruct (exec_prim_ok fuel p b c B Hp1 ltac:(lia) ltac:(lia)) as (b1 & x & R & P). rewrite R. cbn [rbind].
      change (prims_text p (c :: t)) with (prim_text p c ++ prims_text p t).
      destruct x as [e|].
      + eexists _, _. split; [reflexivity|]. now apply bpushed_more.
      + destruct P as (B1 & Bg & T). destruct (IH b1 B1 Hp2 ltac:(lia)) as (b2 & x & R2 & P2).
        exists b2, x. split; [exact R2|]. refine (bpushed_trans _ _ _ _ _ _ _ P2). split; [exact B1|]. split; auto.
  Qed.

  Lemma bpushed_nil_len b b' x : bpushed b b' x [] -> x = None -> jb_len b' = 0 -> got (jb_out b') = btext b.
  Proof using. clear maxw_ok.
    intros (_ & _ & H) -> L. unfold btext at 1 in H. rewrite L, take_0, !app_nil_r in H. exact H.
  Qed.
End Sink.
