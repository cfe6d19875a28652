(** Proofs about src/Payload.cc: reading through the proxy. *)
From Verif Require Import Base CNum Float Value ValueOps Path Emit Numeric Blob ParserInput ParserInputProofs GuessFormat P_GuessFormat Deserialize
  JSONEmitter Bundle JSONParserC JSONCore JSONDriver JSONFlat P_JSONInput BundleRead Payload.
Open Scope N_scope.

Lemma c_str_app t r : ~ In (bchr 0) t -> c_str (t ++ bchr 0 :: r) = t.
Proof.
  induction t as [|c t IH]; intros H; cbn [app c_str]; [reflexivity|].
  destruct (aeqb c (bchr 0)) eqn:E; [apply aeqb_eq in E; subst; exfalso; apply H; left; reflexivity|].
  rewrite IH; [reflexivity|]. intros K. apply H. right. exact K.
Qed.
Lemma strnlen_app t r : ~ In (bchr 0) t -> strnlen (t ++ bchr 0 :: r) = llen t.
Proof.
  induction t as [|c t IH]; intros H; cbn [app strnlen]; [reflexivity|].
  destruct (aeqb c (bchr 0)) eqn:E; [apply aeqb_eq in E; subst; exfalso; apply H; left; reflexivity|].
  rewrite IH; [unfold llen; cbn [List.length]; lia|]. intros K. apply H. right. exact K.
Qed.
Lemma strnlen_all t : ~ In (bchr 0) t -> strnlen t = llen t.
Proof.
  induction t as [|c t IH]; intros H; cbn [strnlen]; [reflexivity|].
  destruct (aeqb c (bchr 0)) eqn:E; [apply aeqb_eq in E; subst; exfalso; apply H; left; reflexivity|].
  rewrite IH; [unfold llen; cbn [List.length]; lia|]. intros K. apply H. right. exact K.
Qed.

(** A view of bytes that begin with [t] and a NUL: it ends within [t], or after the NUL. *)
Lemma view_cases (b rest t pl : bytes) : b ++ rest = t ++ bchr 0 :: pl -> ~ In (bchr 0) t ->
  (exists t2, t = b ++ t2 /\ strnlen b = llen b) \/ (exists b2, b = t ++ bchr 0 :: b2 /\ pl = b2 ++ rest /\ strnlen b = llen t).
Proof.
  revert b; induction t as [|c t IH]; intros b E H.
  - destruct b as [|x b]; [left; exists []; auto|]. cbn in E. injection E as -> E. right. exists b. cbn. auto.
  - destruct b as [|x b]; [left; exists (c :: t); auto|]. cbn in E. injection E as -> E.
    assert (Hc : aeqb c (bchr 0) = false).
    { destruct (aeqb c (bchr 0)) eqn:Q; [|reflexivity]. apply aeqb_eq in Q. subst. exfalso. apply H. left. reflexivity. }
    destruct (IH b E ltac:(intros K; apply H; right; exact K)) as [(t2 & -> & L)|(b2 & -> & -> & L)].
    + left. exists t2. split; [reflexivity|]. cbn [strnlen]. rewrite Hc, L. unfold llen. cbn [List.length]. lia.
    + right. exists b2. repeat split. cbn [strnlen]. rewrite Hc, L. unfold llen. cbn [List.length]. lia.
Qed.

Lemma no_nul_drop n (t : bytes) : ~ In (bchr 0) t -> ~ In (bchr 0) (drop n t).
Proof. intros H K. apply H. rewrite <- (take_app_drop n t). apply in_or_app. right. exact K. Qed.

(** The input behind the proxy: some text, a NUL, and the payload. *)
Definition px_weak (pl : bytes) (i : proxy) : Prop :=
  ready (px_in i) /\ exists t, unread (px_in i) = t ++ bchr 0 :: pl /\ ~ In (bchr 0) t /\ llen t < 2^32.
Definition px_inv (pl : bytes) (i : proxy) : Prop := px_weak pl i /\ px_scan i = 0.
Definition px_unread (i : proxy) : bytes := c_str (unread (px_in i)).

Lemma px_next pl i len : px_inv pl i -> len <= 2^31 -> exists v i1, px_view i len = Ok (v, i1) /\
    match v with
    | None => px_unread i = [] /\ px_weak pl i1 /\ px_unread i1 = []
    | Some cs => cs <> [] /\ exists rest, px_unread i = cs ++ rest /\
        forall n, n <= llen cs -> exists i2, px_release i1 n = Ok i2 /\ px_weak pl i2 /\ (n = llen cs -> px_inv pl i2) /\
          px_unread i2 = drop n (px_unread i)
    end.
Proof.
  intros [[R (t & U & Nt & Lt)] S] Hl. destruct i as [i sc]. cbn [px_in px_scan] in *. subst sc.
  unfold px_view, px_unread. cbn [px_in px_scan]. rewrite U, c_str_app by exact Nt.
  destruct (pinput_next_len i len R Hl) as (v & i1 & -> & H). cbn [rbind].
  destruct v as [b|]; [|destruct H as (H & _); rewrite U in H; destruct t; discriminate].
  destruct H as (rest & E & Hr & R1 & U1 & Rel). rewrite U in E. change (N.to_nat 0) with O. rewrite drop_0.
  assert (Nb : b <> []).
  { intros ->. destruct rest; [destruct t; discriminate|]. destruct (Hr ltac:(discriminate)). congruence. }
  destruct b as [|c b]; [congruence|]. cbn [nth_error].
  destruct (aeqb c (bchr 0)) eqn:Q.
  - apply aeqb_eq in Q. subst c. eexists None, _. rewrite take_0. split; [reflexivity|].
    destruct t as [|x t]; [|cbn in E; injection E as -> E; exfalso; apply Nt; left; reflexivity].
    split; [reflexivity|]. split; [split; [exact R1|]; exists []; cbn [px_in]; rewrite U1, U; auto|].
    cbn [px_in]. rewrite U1, U. reflexivity.
  - set (bb := c :: b) in *. assert (SP : 0 < strnlen bb) by (unfold bb; cbn [strnlen]; rewrite Q; lia).
    assert (V : exists cs rest', take (0 + strnlen bb) bb = cs /\ strnlen bb = llen cs /\ t = cs ++ rest' ).
    { destruct (view_cases bb rest t pl (eq_sym E) Nt) as [(t2 & Et & L)|(b2 & Eb & _ & L)].
      - exists bb, t2. rewrite take_all by lia. auto.
      - exists t, []. rewrite app_nil_r. split; [|auto]. rewrite L. rewrite Eb. rewrite take_app, take_all by lia.
        replace (0 + llen t - llen t) with 0 by lia. rewrite take_0, app_nil_r. reflexivity. }
    destruct V as (cs & rest' & V1 & V2 & V3). rewrite V1.
    destruct cs as [|x cs]; [change (llen (@nil ascii)) with 0 in V2; clearbody bb; lia|].
    eexists (Some _), _. split; [reflexivity|]. split; [discriminate|]. exists rest'. split; [exact V3|].
    intros n Hn. assert (Lb : llen (x :: cs) <= llen bb).
    { rewrite <- V1, llen_take. lia. }
    destruct (Rel n ltac:(lia)) as (i2 & E2 & R2 & U2). unfold px_release. cbn [px_in px_scan]. rewrite E2. cbn [rbind].
    eexists. split; [reflexivity|]. cbn [px_in].
    assert (Lx : llen (x :: cs) <= llen t) by (rewrite V3, llen_app; lia).
    assert (Ud : unread i2 = drop n t ++ bchr 0 :: pl).
    { rewrite U2, U, drop_app. replace (n - llen t) with 0 by lia. rewrite drop_0. reflexivity. }
    assert (W : px_weak pl (Proxy i2 (wrap32 (0 + strnlen bb + 2^32 - n)))).
    { split; [exact R2|]. exists (drop n t). cbn [px_in]. split; [exact Ud|]. split; [apply no_nul_drop, Nt|]. rewrite llen_drop. lia. }
    split; [exact W|]. split.
    + intros ->. split; [exact W|]. cbn [px_scan]. rewrite V2. unfold wrap32.
      replace (0 + llen (x :: cs) + 2^32 - llen (x :: cs)) with (2^32) by lia. reflexivity.
    + rewrite Ud, c_str_app by (apply no_nul_drop, Nt). reflexivity.
Qed.

(** ParseVariant through the proxy sees the text before the NUL. *)
Lemma px_parse_json i fuel t pl : ready i -> unread i = t ++ bchr 0 :: pl -> ~ In (bchr 0) t -> llen t < 2^32 ->
  (List.length t + 4 < fuel)%nat ->
  match flat_parse t with
  | Ok (v, rest) => exists d px, json_parse fuel (Proxy i 0) = Ok (v, d, px) /\ ready (px_in px) /\
      unread (px_in px) = rest ++ bchr 0 :: pl /\ ~ In (bchr 0) rest
  | r => json_parse fuel (Proxy i 0) = match r with Ok _ => UB | Throw e => Throw e | UB => UB | Abort => Abort | Fuel => Fuel end
  end.
Proof.
  intros R U Nt Lt Hf.
  assert (I0 : px_inv pl (Proxy i 0)) by (split; [split; [exact R|exists t; auto]|reflexivity]).
  assert (PU : px_unread (Proxy i 0) = t) by (unfold px_unread; cbn [px_in]; rewrite U; apply c_str_app, Nt).
  pose proof (pv_flat_weak proxy (fun i => px_view i 0) px_release (px_inv pl) (px_weak pl) px_unread) as P.
  specialize (P ltac:(intros j [Hj _]; exact Hj) ltac:(intros j Hj; apply px_next; [exact Hj|lia]) (Proxy i 0) fuel I0).
  rewrite PU in P. specialize (P Hf). unfold json_parse.
  destruct (flat_parse t) as [[v rest]| | | |]; [|exact P..].
  destruct P as (d & px & E & _ & [R1 (t1 & U1 & N1 & L1)] & U2). exists d, px. split; [exact E|]. split; [exact R1|].
  unfold px_unread in U2. rewrite U1, c_str_app in U2 by exact N1. subst t1. auto.
Qed.

(** Skipping to behind the NUL. *)
Lemma skip_nul_ok pl : forall fuel t i, ready i -> unread i = t ++ bchr 0 :: pl -> ~ In (bchr 0) t -> (List.length t < fuel)%nat ->
  exists i1, skip_nul fuel i = Ok i1 /\ ready i1 /\ unread i1 = pl.
Proof.
  induction fuel as [|f IH]; intros t i R U Nt Hf; [lia|]. cbn [skip_nul].
  destruct (pinput_next_len i 1 R ltac:(lia)) as (v & i1 & -> & H). cbn [rbind].
  destruct v as [b|]; [|destruct H as (H & _); rewrite U in H; destruct t; discriminate].
  destruct H as (rest & E & Hr & R1 & U1 & Rel). rewrite U in E.
  assert (Nb : b <> []).
  { intros ->. destruct rest; [destruct t; discriminate|]. destruct (Hr ltac:(discriminate)). congruence. }
  destruct b as [|c b]; [congruence|]. set (bb := c :: b) in *.
  destruct (view_cases bb rest t pl (eq_sym E) Nt) as [(t2 & Et & L)|(b2 & Eb & Ep & L)]; rewrite L.
  - rewrite N.ltb_irrefl. destruct (Rel (llen bb) ltac:(lia)) as (i2 & -> & R2 & U2). cbn [rbind].
    apply (IH t2); auto.
    + rewrite U2, U, Et, <- app_assoc, drop_app, drop_all by lia. rewrite N.sub_diag, drop_0. reflexivity.
    + intros K. apply Nt. rewrite Et. apply in_or_app. right. exact K.
    + rewrite Et, app_length in Hf. unfold bb in Hf. cbn [List.length] in Hf. lia.
  - assert (Lb : llen bb = llen t + 1 + llen b2).
    { rewrite Eb, llen_app. unfold llen. cbn [List.length]. lia. }
    replace (llen t <? llen bb) with true by (symmetry; apply N.ltb_lt; lia).
    destruct (Rel (llen t + 1) ltac:(lia)) as (i2 & -> & R2 & U2). exists i2. split; [reflexivity|]. split; [exact R2|].
    rewrite U2, U, drop_app, drop_all by lia. replace (llen t + 1 - llen t) with 1 by lia. reflexivity.
Qed.

(** Reading the payload. *)
Lemma read_payload_ok i ret pp n data extra : ready i -> unread i = data ++ extra -> llen data = n -> 0 < n <= 2^31 ->
  vat ret (pp_length pp) = Some (VUns n) ->
  match vset ret (pp_data pp) (VBlob [data]) with
  | Some r => exists i1, read_payload i ret pp = Ok (r, i1) /\ ready i1 /\ unread i1 = extra
  | None => read_payload i ret pp = Throw UnexpectedTypeError
  end.
Proof.
  intros R U L B A. unfold read_payload. rewrite A. cbn [as_uns rbind].
  replace (0 <? n) with true by (symmetry; apply N.ltb_lt; lia).
  assert (Wn : wrap32 n = n) by (unfold wrap32; apply N.mod_small; lia). rewrite Wn.
  destruct (pinput_next_len i n R ltac:(lia)) as (v & i1 & -> & H). cbn [rbind].
  destruct v as [b|]; [|destruct H as (H & _); rewrite U in H; destruct data; [unfold llen in L; cbn in L; lia|discriminate]].
  destruct H as (rest & E & Hr & R1 & U1 & Rel). rewrite U in E.
  assert (Lb : n <= llen b).
  { destruct rest as [|x rest]; [rewrite app_nil_r in E; rewrite <- E, llen_app; lia|]. apply Hr. discriminate. }
  replace (llen b <? n) with false by (symmetry; apply N.ltb_ge; lia).
  destruct (Rel n Lb) as (i2 & -> & R2 & U2). cbn [rbind].
  assert (T : take n b = data).
  { assert (T1 : take n (b ++ rest) = take n (data ++ extra)) by (now rewrite E). rewrite !take_app in T1.
    replace (n - llen b) with 0 in T1 by lia. replace (n - llen data) with 0 in T1 by lia.
    rewrite !take_0, !app_nil_r in T1. rewrite T1. apply take_all. lia. }
  rewrite T. destruct (vset ret (pp_data pp) (VBlob [data])); [|reflexivity].
  exists i2. split; [reflexivity|]. split; [exact R2|]. rewrite U2, U, drop_app, drop_all by lia.
  replace (n - llen data) with 0 by lia. apply drop_0.
Qed.
