(** Property C29 (a document with a binary payload). *)
From Verif Require Import Base CNum Float Value ValueOps P_Blob Path Emit Numeric Blob ParserInput ParserInputProofs GuessFormat P_GuessFormat
  EmitterOutput JSONEmitter JSONEmitterProofs JsonText JsonTextProofs P_JSONEmit JsonGrammar JsonMeaning JSONFlat JSONRead JsonTree P_JSONInput P_JSONRound
  Payload PayloadProofs PayloadWrite PayloadTree.
Open Scope N_scope.

(** ** The text of the header *)

Lemma je_calls_uncount p st e : je_calls p st (uncount e) = je_calls p st e.
Proof. destruct e; reflexivity. Qed.
Lemma je_trace_uncount p : forall es st, je_trace p st (List.map uncount es) = je_trace p st es.
Proof.
  induction es as [|e es IH]; intros st; [reflexivity|]. cbn [List.map je_trace]. rewrite je_calls_uncount.
  destruct (je_calls p st e) as [[[c s] [x|]]| | | |]; try reflexivity. cbn [rbind]. rewrite IH. reflexivity.
Qed.
Lemma je_trace_same p es fs : List.map uncount es = List.map uncount fs -> forall st, je_trace p st es = je_trace p st fs.
Proof. intros E st. rewrite <- (je_trace_uncount p es), E. apply je_trace_uncount. Qed.

Lemma doc_trace p v es : like (es, None) (emit_value v) -> jfits p 0 v ->
  exists cs st', je_trace p [] (EvBeginDoc :: es ++ [EvEndDoc]) = Ok (cs, st', None) /\ prims_text p cs = vtext p 0 v.
Proof.
  intros [_ L] J. cbn [fst] in L. destruct (emit_value_text p v [] J) as (cs & T & X). cbn [je_trace je_calls rbind].
  rewrite (je_trace_app p es [EvEndDoc] [] cs (snd (check_separator []))) by (rewrite (je_trace_same p es (emit_value v) L); exact T).
  cbn [je_trace je_calls rbind]. eexists _, _. split; [reflexivity|]. cbn [app]. rewrite app_nil_r. exact X.
Qed.

(** ** No NUL in JSON *)

Definition clean (t : bytes) : Prop := Forall (fun c => bval c <> 0) t.
Lemma clean_app a b : clean a -> clean b -> clean (a ++ b).
Proof. intros A B. apply Forall_app. auto. Qed.
Lemma clean_nul t : clean t -> ~ In (bchr 0) t.
Proof. intros C K. unfold clean in C. rewrite Forall_forall in C. exact (C _ K eq_refl). Qed.
Lemma clean_if (f : ascii -> bool) t : (forall c, f c = true -> bval c <> 0) -> forallb f t = true -> clean t.
Proof. intros F H. rewrite forallb_forall in H. apply Forall_forall. auto. Qed.
Lemma wsp_clean w : wsp w -> clean w.
Proof. apply clean_if. intros c. unfold is_ws. lia. Qed.
Lemma digit_clean c : is_digit c = true -> bval c <> 0.
Proof. unfold is_digit. lia. Qed.
Lemma digits_clean w : digits w -> clean w.
Proof. apply clean_if. exact digit_clean. Qed.
Lemma lit_clean s : forallb (fun c => negb (bval c =? 0)) s = true -> clean s.
Proof. apply clean_if. intros c. lia. Qed.
Lemma int_part_clean ip : int_part ip -> clean ip.
Proof. intros [->|(c & ds & -> & D & _ & E)]; [apply lit_clean; reflexivity|]. constructor; [apply digit_clean, D|apply digits_clean, E]. Qed.
Lemma minus_clean n : clean (minus n).
Proof. destruct n; apply lit_clean; reflexivity. Qed.
Lemma exp_part_clean e sg ds : exp_part e sg ds -> clean (e :: sg ++ ds).
Proof.
  intros (E & S & D & _). constructor; [destruct E as [-> | ->]; discriminate|]. apply clean_app; [|apply digits_clean, D].
  destruct S as [->|[-> | ->]]; apply lit_clean; reflexivity.
Qed.
Lemma num_clean t v : lib_num t v -> clean t.
Proof.
  intros H; inversion H; subst; repeat apply clean_app; auto using minus_clean, int_part_clean.
  - constructor; [discriminate|apply digits_clean; assumption].
  - apply exp_part_clean; assumption.
  - constructor; [discriminate|]. apply clean_app; [apply digits_clean; assumption|apply exp_part_clean; assumption].
Qed.
Lemma hexval_clean c x : hexval c = Some x -> bval c <> 0.
Proof. unfold hexval. destruct ((48 <=? bval c) && (bval c <=? 57)) eqn:A; [lia|]. destruct ((65 <=? bval c) && (bval c <=? 70)) eqn:B; [lia|].
  destruct ((97 <=? bval c) && (bval c <=? 102)) eqn:D; [lia|discriminate]. Qed.
Lemma hex4_clean h x : hex4 h x -> clean h.
Proof. intros H; inversion H; subst. repeat constructor; eapply hexval_clean; eassumption. Qed.
Lemma chars_clean t s : chars byte_plain t s -> clean t.
Proof.
  induction 1 as [|u t s (c & -> & H1 & _) _ IH|c x t s H _ IH|h x t s H _ _ IH|h1 x1 h2 x2 t s H1 _ H2 _ _ IH].
  - constructor.
  - constructor; [lia|exact IH].
  - constructor; [discriminate|]. constructor; [|exact IH]. intros E. apply (f_equal bchr) in E. rewrite bchr_bval in E. subst c. discriminate.
  - constructor; [discriminate|]. constructor; [discriminate|]. apply clean_app; [eapply hex4_clean, H|exact IH].
  - constructor; [discriminate|]. constructor; [discriminate|]. apply clean_app; [eapply hex4_clean, H1|].
    constructor; [discriminate|]. constructor; [discriminate|]. apply clean_app; [eapply hex4_clean, H2|exact IH].
Qed.
Lemma quoted_clean t s : chars byte_plain t s -> clean (quoted t).
Proof. intros H. constructor; [discriminate|]. apply clean_app; [eapply chars_clean, H|apply lit_clean; reflexivity]. Qed.
Lemma lib_clean t v : lib_json t v -> clean t.
Proof.
  intros (w1 & b & w2 & -> & H1 & H & H2). apply clean_app; [apply wsp_clean, H1|]. apply clean_app; [|apply wsp_clean, H2].
  assert (A : (forall t v, jval wsp byte_plain lib_num t v -> clean t) /\ (forall t v, jelems wsp byte_plain lib_num t v -> clean t) /\
              (forall t v, jmembers wsp byte_plain lib_num t v -> clean t)).
  { apply jval_all; intros;
      repeat first [apply clean_app | assumption | apply wsp_clean; assumption | eapply num_clean; eassumption | eapply quoted_clean; eassumption |
        apply Forall_cons; [discriminate|] | (apply lit_clean; reflexivity)]. }
  destruct A as (A & _). eapply A, H.
Qed.

(** ** Padding and payload *)

Lemma take_add {A} m n (l : list A) : take (m + n) l = take m l ++ take n (drop m l).
Proof.
  rewrite <- (take_app_drop m l) at 1. rewrite take_app. rewrite take_take, llen_take. replace (N.min (m + n) m) with m by lia. f_equal.
  destruct (N.le_gt_cases m (llen l)) as [H|H]; [f_equal; lia|]. rewrite drop_all by lia. unfold take. now rewrite !firstn_nil.
Qed.

Definition newlines (n : N) : bytes := repeat (bchr 10) (N.to_nat n).
Lemma llen_newlines n : llen (newlines n) = n.
Proof. unfold newlines, llen. rewrite repeat_length. lia. Qed.
Lemma newlines_wsp n : wsp (newlines n).
Proof. unfold wsp, newlines. induction (N.to_nat n); [reflexivity|exact IHn0]. Qed.

Lemma pad_ok num : num < 2^31 -> forall fuel w written, written <= num + 1 ->
  (List.length (ck_sched w) + N.to_nat (num + 1 - written) < fuel)%nat ->
  exists w' k, pad_loop ck_write fuel w (newlines num ++ [bchr 0]) num written = Ok (w', None) /\
    (k = num \/ k = num + 1) /\ written <= k /\
    ck_got w' = ck_got w ++ take (k - written) (drop written (newlines num ++ [bchr 0])) /\
    (List.length (ck_sched w') <= List.length (ck_sched w))%nat /\
    (ck_sched w = [] -> written < num -> k = num + 1) /\ (ck_sched w = [] -> ck_sched w' = []).
Proof.
  intros Hn. induction fuel as [|f IH]; intros w written Hw Hf; [lia|]. cbn [pad_loop]. destruct (written <? num) eqn:E.
  2: { exists w, written. assert (written = num \/ written = num + 1) by lia. repeat split; auto; try lia.
       rewrite N.sub_diag, take_0, app_nil_r. reflexivity. }
  set (buf := newlines num ++ [bchr 0]) in *. assert (Lb : llen buf = num + 1) by (subst buf; rewrite llen_app, llen_newlines; reflexivity).
  assert (Ld : llen (drop written buf) = num + 1 - written) by (rewrite llen_drop; lia).
  assert (ND : drop written buf <> []) by (intros K; rewrite K in Ld; cbn in Ld; lia).
  pose proof (ck_write_ok w (drop written buf) I ND ltac:(lia)) as S. destruct (ck_write w (drop written buf)) as [n w1| |] eqn:Ew; [|destruct S as (_ & _ & _ & _ & [])|destruct S].
  destruct S as (S1 & S2 & _ & S4 & S5). assert (Wr : wrap32 (written + n) = written + n) by (unfold wrap32; apply N.mod_small; lia). rewrite Wr.
  destruct (IH w1 (written + n) ltac:(lia)) as (w' & k & R & K & Kw & G & L & E1 & E2).
  { destruct (N.eq_dec n 0) as [->|Nz]; [specialize (S5 eq_refl)|]; lia. }
  exists w', k. split; [exact R|]. split; [exact K|]. split; [lia|]. split.
  { rewrite G, S2, <- app_assoc. f_equal. replace (k - written) with (n + (k - (written + n))) by lia. rewrite take_add, drop_drop. reflexivity. }
  split; [lia|]. split.
  - intros Es Hlt. unfold ck_write in Ew. rewrite Es in Ew. injection Ew as <- <-. lia.
  - intros Es. apply E2. unfold ck_write in Ew. rewrite Es in Ew. injection Ew as _ <-. reflexivity.
Qed.

Lemma slabs_ok b : llen (List.concat b) < 2^32 -> forall fuel w, (List.length (ck_sched w) + List.length (List.concat b) < fuel)%nat ->
  exists w', slabs ck_write fuel w b = Ok (w', None) /\ ck_got w' = ck_got w ++ List.concat b.
Proof.
  induction b as [|x b IH]; intros Lb fuel w Hf; cbn [slabs List.concat] in *; [exists w; rewrite app_nil_r; auto|].
  rewrite llen_app in Lb. rewrite app_length in Hf.
  destruct (write_loop_ok ck_write ck_got (fun _ => True) (fun w => List.length (ck_sched w)) None RuntimeError (2^32 - 1) ck_max ck_write_ok fuel w x 0 I) as (w1 & y & R & P);
    [lia|lia|unfold llen; lia|].
  destruct P as (_ & Bg & P). destruct y as [e|]; [destruct P as (_ & _ & [])|]. rewrite drop_0 in P. rewrite R. cbn [rbind].
  destruct (IH ltac:(lia) fuel w1 ltac:(lia)) as (w' & R' & G). exists w'. split; [exact R'|]. rewrite G, P, app_assoc. reflexivity.
Qed.

(** ** Writing and reading back *)

(** How many bytes the output has received, as the program counts them (unsigned). *)
Definition ck_num (w : chunky) : N := wrap32 (llen (ck_got w)).
(** The document is written without an exception, and what the output then has is [ok]. *)
Definition written (p : jparams) (pp : pparams) (v : value) (sched : list N) (before : bytes) (ok : bytes -> Prop) : Prop :=
  exists F, forall fuel, (F < fuel)%nat ->
    exists w, serialize_payload ck_write ck_num (json_emit ck_write fuel p) fuel (Chunky sched before) v pp = Ok (w, None) /\ ok (ck_got w).
Definition read_back (pp : pparams) (i : pinput) (v : value) (after : bytes) : Prop :=
  exists F, forall fuel, (F < fuel)%nat ->
    exists i', deserialize_payload (json_parse fuel) fuel i pp = Ok (v, i') /\ ready i' /\ unread i' = after.

Lemma vat_okk x : forall ks v, vat v (keys ks) = Some x -> okk ks v.
Proof.
  induction ks as [|k ks IH]; intros v H; cbn [okk]; [exact I|]. cbn [keys List.map vat] in H.
  destruct v; cbn [vchild] in H; try discriminate. eexists. split; [reflexivity|]. intros w G. rewrite G in H. apply IH, H.
Qed.
Lemma mget_mset_same {A} k (x : A) m : mget k (mset k x m) = Some x.
Proof.
  induction m as [|[j y] m IH]; cbn [mset mget]; [now rewrite beqb_refl|]. destruct (bcmp k j) eqn:E; cbn [mget]; rewrite ?beqb_refl; try reflexivity.
  destruct (beqb k j) eqn:B; [|exact IH]. apply beqb_eq in B. subst. rewrite bcmp_refl in E. discriminate.
Qed.
Lemma vat_vset_same x : forall p v v', vset v p x = Some v' -> vat v' p = Some x.
Proof.
  induction p as [|e p IH]; intros v v' H; cbn [vset vat] in *; [injection H as ->; reflexivity|].
  destruct (vset _ p x) as [w|] eqn:E; [|discriminate]. assert (C : vchild v' e = Some w).
  { destruct e as [k|i], v; cbn [vset_elem] in H; try discriminate; injection H as <-; cbn [vchild]; rewrite ?mget_mset_same, ?nth_vput, ?Nat.eqb_refl; auto.
    cbn [mget]. now rewrite beqb_refl. }
  rewrite C. eapply IH, E.
Qed.

Lemma json_emit_ok p sched before v es : like (es, None) (emit_value v) -> jfits p 0 v ->
  exists F, forall fuel, (F < fuel)%nat -> exists w, json_emit ck_write fuel p (Chunky sched before) (EvBeginDoc :: es ++ [EvEndDoc]) = Ok (w, None) /\
    ck_got w = before ++ vtext p 0 v /\ (List.length (ck_sched w) <= List.length sched)%nat /\ (sched = [] -> ck_sched w = []).
Proof.
  intros L J. destruct (doc_trace p v es L J) as (cs & st' & T & X).
  exists (List.length sched + prims_size p cs)%nat. intros fuel Hf. unfold json_emit.
  destruct (run_close_ok ck_write ck_got (fun w => (List.length (ck_sched w) <= List.length sched)%nat) (fun w => List.length (ck_sched w)) None RuntimeError (2^32 - 1) ck_max) with
    (fuel := fuel) (p := p) (w := Chunky sched before) (es := EvBeginDoc :: es ++ [EvEndDoc]) (cs := cs) (st' := st') (x := @None exn)
    as (st'' & b & b' & R1 & R2 & _ & (_ & _ & B) & G); try assumption; try reflexivity.
  - intros w data I N0 Hd. pose proof (ck_write_ok w data Logic.I N0 Hd) as S. destruct (ck_write w data); [|destruct S as (_ & _ & _ & _ & [])|exact S].
    destruct S as (S1 & S2 & _ & S4 & S5). repeat split; auto. lia.
  - apply ck_fits.
  - rewrite R1. cbn [rbind]. rewrite R2. cbn [rbind]. exists (jb_out b'). split; [reflexivity|]. rewrite <- X. split; [exact G|]. split; [exact B|].
    intros ->. cbn in B. destruct (ck_sched (jb_out b')); [reflexivity|cbn in B; lia].
Qed.

Lemma pad_size_range w : 0 < pad_size w <= 32.
Proof. unfold pad_size. pose proof (N.mod_lt (w + 1) 32 ltac:(lia)). lia. Qed.
Lemma pad_size_aligned t : (t + pad_size (wrap32 t) + 1) mod 32 = 0.
Proof.
  unfold pad_size, wrap32. assert (E : (t mod 2^32 + 1) mod 32 = (t + 1) mod 32).
  { rewrite N.add_mod by lia. rewrite (N.add_mod t 1) by lia. f_equal. f_equal.
    change (2^32) with (32 * 2^27). rewrite N.mod_mul_r by lia.
    rewrite (N.mul_comm 32 (_ mod _)), N.mod_add by lia. apply N.mod_mod. lia. }
  rewrite E. pose proof (N.mod_lt (t + 1) 32 ltac:(lia)). pose proof (N.div_mod (t + 1) 32 ltac:(lia)) as D.
  replace (t + (32 - (t + 1) mod 32) + 1) with (0 + ((t + 1) / 32 + 1) * 32) by lia. rewrite N.mod_add by lia. reflexivity.
Qed.

Theorem C29_json_roundtrip_partial : forall (p : jparams) (v h0 u : value) (lk dk : list bytes) (b : blob),
  j_prec p = 17 -> vok v -> lk <> [] -> dk <> [] -> apart lk dk -> okk lk v ->
  Forall key_fine lk -> llen lk * j_indent p < 2^32 ->
  vat v (keys dk) = Some (VBlob b) -> 0 < llen (List.concat b) <= 2^31 ->
  vset v (keys dk) VNull = Some h0 -> emittable p 0 h0 -> faithful h0 ->
  vset v (keys lk) (VUns (llen (List.concat b))) = Some u ->
  let pp := PParams (keys dk) (keys lk) false None in
  exists text v', ~ In (bchr 0) text /\ same u v' /\ vat v' (keys dk) = Some (VBlob [List.concat b]) /\
    (forall before sched, exists n, 0 < n <= 32 /\ llen (before ++ text ++ newlines n ++ [bchr 0]) mod 32 = 0 /\
       written p pp v sched before (fun out =>
         out = before ++ text ++ newlines n ++ [bchr 0] ++ List.concat b \/
         sched <> [] /\ out = before ++ text ++ newlines n ++ List.concat b)) /\
    (forall i n after, ready i -> unread i = text ++ newlines n ++ [bchr 0] ++ List.concat b ++ after -> llen text + n < 2^32 ->
       read_back pp i v' after).
Proof.
  intros p v h0 u lk dk b Q V Nl Nd Ap Ol Fl Il At Lb H0 K F U pp.
  set (n := llen (List.concat b)) in *. set (y := [List.concat b]).
  assert (By : List.concat b = List.concat y) by (subst y; cbn; rewrite app_nil_r; reflexivity).
  destruct (header_ok p n b y Q ltac:(subst n; lia) By v V (Some lk) (Some dk) 0 h0) as (J & h' & T & (u0 & v' & U0 & D & S) & Al); try assumption.
  { destruct dk; [congruence|exact I]. }
  { split; [exact Fl|]. rewrite N.add_0_l. exact Il. }
  cbn [with_length with_data] in U0, D. assert (u0 = u) by congruence. subst u0. specialize (Al lk eq_refl).
  pose proof (payload_emit_like n v V (Some lk) (Some dk) Ol (vat_okk _ _ _ At)) as L. cbn [pkeys option_map] in L.
  set (h := head n v (Some lk) (Some dk)) in *.
  exists (vtext p 0 h), v'. pose proof (vtext_lib p h) as Lib. rewrite Q in Lib. change (Z.of_N 17) with 17%Z in Lib.
  assert (Vm : exists m, v = VMap m) by (destruct lk; [congruence|]; destruct Ol as (m & -> & _); eauto).
  destruct Vm as (m & ->).
  assert (Hm : exists mh, h = VMap mh).
  { subst h. rewrite head_map; [eauto|destruct lk; [congruence|exact I]|destruct dk; [congruence|exact I]]. }
  destruct Hm as (mh & Hm).
  split; [apply clean_nul; eapply lib_clean, Lib|]. split; [exact S|]. split; [exact (vat_vset_same _ _ _ _ D)|].
  split.
  - intros before sched. destruct (payload_emit n (VMap m) (Some (keys lk)) (Some (keys dk))) as [es x] eqn:Ee.
    pose proof L as [Lx _]. cbn [snd] in Lx. subst x.
    destruct (json_emit_ok p sched before h es L J) as (F1 & Em).
    set (total := llen (before ++ vtext p 0 h)). set (k := pad_size (wrap32 total)). pose proof (pad_size_range (wrap32 total)) as Kb. fold k in Kb.
    exists k. split; [exact Kb|]. split.
    { rewrite app_assoc, (llen_app _ (newlines k ++ _)), (llen_app (newlines k)), llen_newlines. rewrite N.add_assoc. apply pad_size_aligned. }
    exists (F1 + List.length sched + 100 + List.length (List.concat b))%nat. intros fuel Hf.
    destruct (Em fuel ltac:(lia)) as (w1 & E1 & G1 & L1 & N1). unfold serialize_payload, payload_of. cbn [pp_data pp_length pp_override pp_ignore pp].
    rewrite At. cbn [rbind]. rewrite total_length_small by (fold (llen (List.concat b)); lia). fold (llen (List.concat b)). fold n.
    rewrite Ee, E1. cbn [rbind]. assert (Ek : pad_size (ck_num w1) = k) by (unfold ck_num; rewrite G1; reflexivity). rewrite Ek.
    change (repeat (bchr 10) (N.to_nat k)) with (newlines k).
    destruct (pad_ok k ltac:(lia) fuel w1 0 ltac:(lia) ltac:(lia)) as (w2 & j & R & Kj & _ & G2 & L2 & N2 & N3). rewrite R. cbn [rbind].
    destruct (slabs_ok b ltac:(fold n; lia) fuel w2 ltac:(lia)) as (w3 & R3 & G3). rewrite R3. exists w3. split; [reflexivity|].
    rewrite G3, G2, G1, drop_0, N.sub_0_r, <- !app_assoc. destruct Kj as [->| ->].
    + right. split; [intros E; specialize (N1 E); specialize (N2 N1 ltac:(lia)); lia|].
      rewrite take_app, llen_newlines, N.sub_diag, take_0, app_nil_r, take_all by (rewrite llen_newlines; lia). reflexivity.
    + left. rewrite take_all by (rewrite llen_app, llen_newlines; cbn; lia). rewrite <- app_assoc. reflexivity.
  - intros i k after R Un Lt.
    assert (Lib2 : lib_json (vtext p 0 h ++ newlines k) (vtree 17 h)).
    { destruct Lib as (w1 & t & w2 & -> & W1 & Jv & W2). exists w1, t, (w2 ++ newlines k). rewrite <- !app_assoc. repeat split; auto.
      unfold wsp. rewrite forallb_app, W2. apply newlines_wsp. }
    set (text := vtext p 0 h ++ newlines k) in *.
    assert (Hn : ~ In (bchr 0) text) by (apply clean_nul; eapply lib_clean, Lib2).
    assert (Hr : root (vtree 17 h)) by (rewrite Hm; apply (vtree_root 17 (VMap mh)); exact I).
    destruct (read_document _ _ _ Lib2 Hr T) as (w2 & W2 & Fp & _).
    exists (List.length text + 4 + List.length w2)%nat. intros fuel Hf.
    pose proof (px_parse_json i fuel text (List.concat b ++ after) R) as P. rewrite Fp in P.
    destruct P as (d & px & P1 & P2 & P3 & P4); [rewrite Un; subst text; rewrite <- !app_assoc; reflexivity|exact Hn|subst text; rewrite llen_app, llen_newlines; exact Lt|lia|].
    unfold deserialize_payload. rewrite P1. cbn [rbind].
    destruct (skip_nul_ok (List.concat b ++ after) fuel w2 (px_in px) P2 P3 P4 ltac:(lia)) as (i1 & -> & R1 & U1). cbn [rbind].
    pose proof (read_payload_ok i1 h' pp n (List.concat b) after R1 U1 eq_refl Lb Al) as Rp. cbn [pp_data pp] in Rp. fold y in Rp. rewrite D in Rp. exact Rp.
Qed.
Print Assumptions C29_json_roundtrip_partial.

(** ** Without a payload *)

Lemma kept_head k y : forall n lp dp, kstep dp k <> Some [] -> headkv n lp dp (k, y) = [(k, head n y (kstep lp k) (kstep dp k))] .
Proof. intros n lp dp H. unfold headkv. cbn [fst snd]. destruct (kstep dp k) as [[|? ?]|]; congruence || reflexivity. Qed.

Lemma head_absent n v : vok v -> forall lp dk, vat v (keys dk) = None -> head n v lp (Some dk) = head n v lp None.
Proof.
  induction v as [|bb|z|u|x|s|l IH|m IH|bb] using value_ind'; intros V lp dk A; destruct dk as [|k dr]; try discriminate A;
    destruct lp as [[|l0 lr]|]; try reflexivity.
  - rewrite !head_map by exact I. f_equal. f_equal. apply vok_map in V as [S V].
    assert (P : forall kv, In kv m -> headkv n (Some (l0 :: lr)) (Some (k :: dr)) kv = headkv n (Some (l0 :: lr)) None kv).
    { intros [j y] Hin. rewrite Forall_forall in IH, V. pose proof (In_mget _ _ _ S Hin) as G.
      cbn [keys List.map vat vchild] in A. destruct (beqb j k) eqn:B.
      - apply beqb_eq in B. subst j. rewrite G in A. assert (Nd : dr <> []) by (intros ->; discriminate).
        rewrite !(kept_head k y n) by (cbn [kstep]; rewrite ?beqb_refl; congruence). cbn [kstep]. rewrite beqb_refl.
        f_equal. f_equal. apply (IH _ Hin (V _ Hin)). exact A.
      - rewrite !(kept_head j y n) by (cbn [kstep]; rewrite ?B; congruence). cbn [kstep]. rewrite B. reflexivity. }
    clear -P. induction m as [|kv m IHm]; [reflexivity|]. cbn [flat_map]. rewrite P by (left; reflexivity). f_equal. apply IHm. intros kv' H. apply P. right. exact H.
  - rewrite !head_map by exact I. f_equal. f_equal. apply vok_map in V as [S V].
    assert (P : forall kv, In kv m -> headkv n None (Some (k :: dr)) kv = headkv n None None kv).
    { intros [j y] Hin. rewrite Forall_forall in IH, V. pose proof (In_mget _ _ _ S Hin) as G.
      cbn [keys List.map vat vchild] in A. destruct (beqb j k) eqn:B.
      - apply beqb_eq in B. subst j. rewrite G in A. assert (Nd : dr <> []) by (intros ->; discriminate).
        rewrite !(kept_head k y n) by (cbn [kstep]; rewrite ?beqb_refl; congruence). cbn [kstep]. rewrite beqb_refl.
        f_equal. f_equal. apply (IH _ Hin (V _ Hin)). exact A.
      - rewrite !(kept_head j y n) by (cbn [kstep]; rewrite ?B; congruence). cbn [kstep]. rewrite B. reflexivity. }
    clear -P. induction m as [|kv m IHm]; [reflexivity|]. cbn [flat_map]. rewrite P by (left; reflexivity). f_equal. apply IHm. intros kv' H. apply P. right. exact H.
Qed.

(** Nothing at the data path: the length zero is recorded, and reading gives the document
    with it. *)
Theorem C29_no_payload_partial : forall (p : jparams) (v u : value) (lk dk : list bytes),
  j_prec p = 17 -> vok v -> lk <> [] -> dk <> [] -> okk lk v -> okk dk v ->
  Forall key_fine lk -> llen lk * j_indent p < 2^32 ->
  vat v (keys dk) = None -> emittable p 0 v -> faithful v ->
  vset v (keys lk) (VUns 0) = Some u ->
  let pp := PParams (keys dk) (keys lk) false None in
  exists text v', ~ In (bchr 0) text /\ same u v' /\
    (forall before sched, exists n, 0 < n <= 32 /\ llen (before ++ text ++ newlines n ++ [bchr 0]) mod 32 = 0 /\
       written p pp v sched before (fun out =>
         out = before ++ text ++ newlines n ++ [bchr 0] \/ sched <> [] /\ out = before ++ text ++ newlines n)) /\
    (forall i n after, ready i -> unread i = text ++ newlines n ++ [bchr 0] ++ after -> llen text + n < 2^32 ->
       read_back pp i v' after).
Proof.
  intros p v u lk dk Q V Nl Nd Ol Od Fl Il At K F U pp.
  destruct (header_ok p 0 [] [] Q ltac:(lia) eq_refl v V (Some lk) None 0 v) as (J & h' & T & (u0 & v' & U0 & D & S) & Al); try assumption; try exact I; try reflexivity.
  { split; [exact Fl|]. rewrite N.add_0_l. exact Il. }
  rewrite <- (head_absent 0 v V (Some lk) dk At) in J, T.
  cbn [with_length with_data] in U0, D. assert (u0 = u) by congruence. subst u0. injection D as ->. specialize (Al lk eq_refl).
  pose proof (payload_emit_like 0 v V (Some lk) (Some dk) Ol Od) as L. cbn [pkeys option_map] in L.
  set (h := head 0 v (Some lk) (Some dk)) in *.
  exists (vtext p 0 h), v'. pose proof (vtext_lib p h) as Lib. rewrite Q in Lib. change (Z.of_N 17) with 17%Z in Lib.
  assert (Vm : exists m, v = VMap m) by (destruct lk; [congruence|]; destruct Ol as (m & -> & _); eauto).
  destruct Vm as (m & ->).
  assert (Hm : exists mh, h = VMap mh).
  { subst h. rewrite head_map; [eauto|destruct lk; [congruence|exact I]|destruct dk; [congruence|exact I]]. }
  destruct Hm as (mh & Hm).
  split; [apply clean_nul; eapply lib_clean, Lib|]. split; [exact S|].
  split.
  - intros before sched. destruct (payload_emit 0 (VMap m) (Some (keys lk)) (Some (keys dk))) as [es x] eqn:Ee.
    pose proof L as [Lx _]. cbn [snd] in Lx. subst x.
    destruct (json_emit_ok p sched before h es L J) as (F1 & Em).
    set (total := llen (before ++ vtext p 0 h)). set (k := pad_size (wrap32 total)). pose proof (pad_size_range (wrap32 total)) as Kb. fold k in Kb.
    exists k. split; [exact Kb|]. split.
    { rewrite app_assoc, (llen_app _ (newlines k ++ _)), (llen_app (newlines k)), llen_newlines. rewrite N.add_assoc. apply pad_size_aligned. }
    exists (F1 + List.length sched + 100)%nat. intros fuel Hf.
    destruct (Em fuel ltac:(lia)) as (w1 & E1 & G1 & L1 & N1). unfold serialize_payload, payload_of. cbn [pp_data pp_length pp_override pp_ignore pp].
    rewrite At. cbn [rbind]. rewrite Ee, E1. cbn [rbind]. assert (Ek : pad_size (ck_num w1) = k) by (unfold ck_num; rewrite G1; reflexivity). rewrite Ek.
    change (repeat (bchr 10) (N.to_nat k)) with (newlines k).
    destruct (pad_ok k ltac:(lia) fuel w1 0 ltac:(lia) ltac:(lia)) as (w2 & j & R & Kj & _ & G2 & L2 & N2 & N3). rewrite R. cbn [rbind].
    exists w2. split; [reflexivity|]. rewrite G2, G1, drop_0, N.sub_0_r, <- !app_assoc. destruct Kj as [->| ->].
    + right. split; [intros E; specialize (N1 E); specialize (N2 N1 ltac:(lia)); lia|].
      rewrite take_app, llen_newlines, N.sub_diag, take_0, app_nil_r, take_all by (rewrite llen_newlines; lia). reflexivity.
    + left. rewrite take_all by (rewrite llen_app, llen_newlines; cbn; lia). reflexivity.
  - intros i k after R Un Lt.
    assert (Lib2 : lib_json (vtext p 0 h ++ newlines k) (vtree 17 h)).
    { destruct Lib as (w1 & t & w2 & -> & W1 & Jv & W2). exists w1, t, (w2 ++ newlines k). rewrite <- !app_assoc. repeat split; auto.
      unfold wsp. rewrite forallb_app, W2. apply newlines_wsp. }
    set (text := vtext p 0 h ++ newlines k) in *.
    assert (Hn : ~ In (bchr 0) text) by (apply clean_nul; eapply lib_clean, Lib2).
    assert (Hr : root (vtree 17 h)) by (rewrite Hm; apply (vtree_root 17 (VMap mh)); exact I).
    destruct (read_document _ _ _ Lib2 Hr T) as (w2 & W2 & Fp & _).
    exists (List.length text + 4 + List.length w2)%nat. intros fuel Hf.
    pose proof (px_parse_json i fuel text after R) as P. rewrite Fp in P.
    destruct P as (d & px & P1 & P2 & P3 & P4); [rewrite Un; subst text; rewrite <- !app_assoc; reflexivity|exact Hn|subst text; rewrite llen_app, llen_newlines; exact Lt|lia|].
    unfold deserialize_payload. rewrite P1. cbn [rbind].
    destruct (skip_nul_ok after fuel w2 (px_in px) P2 P3 P4 ltac:(lia)) as (i1 & -> & R1 & U1). cbn [rbind].
    unfold read_payload. cbn [pp_length pp]. rewrite Al. cbn [as_uns rbind N.ltb N.compare]. eexists. split; [reflexivity|]. auto.
Qed.
Print Assumptions C29_no_payload_partial.

(** ** Cases *)

Definition pay_doc (b : blob) : value :=
  VMap [(s2b "a", VInt 5); (s2b "payload", VMap [(s2b "data", VBlob b); (s2b "x", VNull)]); (s2b "z", VStr (s2b "end"))].
Definition pay_dk := [s2b "payload"; s2b "data"].
Definition pay_lk := [s2b "payload"; s2b "length"].
Example C29_default_paths : default_params default_data default_length = Ok (PParams (keys pay_dk) (keys pay_lk) false None).
Proof. reflexivity. Qed.
(** The default paths, a payload in two pieces. *)
Example C29_case : let b := [s2b "hel"; [bchr 0; bchr 10]] in let v := pay_doc b in
  vok v /\ apart pay_lk pay_dk /\ okk pay_lk v /\ Forall key_fine pay_lk /\ vat v (keys pay_dk) = Some (VBlob b) /\
  0 < llen (List.concat b) <= 2^31 /\ (exists h0, vset v (keys pay_dk) VNull = Some h0 /\ emittable jdefault 0 h0 /\ faithful h0) /\
  exists u, vset v (keys pay_lk) (VUns (llen (List.concat b))) = Some u.
Proof.
  cbn zeta. split; [vm_compute; repeat split; try congruence; intros k0 K; repeat (destruct K as [<-|K]; [reflexivity|]); destruct K|].
  split; [exact I|]. split.
  { eexists. split; [reflexivity|]. intros w [= <-]. eexists. split; [reflexivity|]. discriminate. }
  split; [apply Forall_forall; intros k [<-|[<-|[]]]; split; vm_compute; intuition congruence|]. split; [reflexivity|]. split; [split; vm_compute; congruence|].
  split; [|eexists; vm_compute; reflexivity]. eexists. split; [reflexivity|]. split; vm_compute; intuition congruence.
Qed.

Definition pay_write (lk dk : list bytes) (sched : list N) (v : value) : res (bytes * option exn) :=
  do (w, x) <- serialize_payload ck_write ck_num (json_emit ck_write 1000 jdefault) 1000 (Chunky sched []) v (PParams (keys dk) (keys lk) false None);
  Ok (ck_got w, x).
Definition pay_read (lk dk : list bytes) (i : pinput) : res value :=
  do (v, _) <- deserialize_payload (json_parse 1000) 1000 i (PParams (keys dk) (keys lk) false None); Ok v.

(** What the program does with it, from memory and from a stream read by sevens. *)
Example C29_case_run : let b := [s2b "hel"; [bchr 0; bchr 10]] in
  exists out, pay_write pay_lk pay_dk [] (pay_doc b) = Ok (out, None) /\
  llen out = 69 /\ skipn 64 out = List.concat b /\
  forall i, In i [InMem (MInput out 0); InStream (si_new 7 (Source out []))] ->
    pay_read pay_lk pay_dk i = Ok (VMap [(s2b "a", VUns 5);
      (s2b "payload", VMap [(s2b "data", VBlob [List.concat b]); (s2b "length", VUns 5); (s2b "x", VNull)]); (s2b "z", VStr (s2b "end"))]).
Proof. cbn zeta. eexists. split; [vm_compute; reflexivity|]. split; [vm_compute; reflexivity|]. split; [vm_compute; reflexivity|].
  intros i [<-|[<-|[]]]; vm_compute; reflexivity. Qed.

(** ** Where the property fails *)

(** An empty payload is not there after reading. *)
Theorem C29_empty_payload_refuted : exists v out v',
  vat v (keys pay_dk) = Some (VBlob [[]]) /\ pay_write pay_lk pay_dk [] v = Ok (out, None) /\
  pay_read pay_lk pay_dk (InMem (MInput out 0)) = Ok v' /\ vat v' (keys pay_dk) = None.
Proof. exists (pay_doc [[]]). eexists _, _. (split; [vm_compute; reflexivity|]). split; [vm_compute; reflexivity|]. split; [vm_compute; reflexivity|]. vm_compute. reflexivity. Qed.

(** An output that takes just the newlines at the one call that offers the padding never
    gets the NUL; the reading then fails. *)
Theorem C29_lost_nul_refuted : exists v sched out,
  pay_write pay_lk pay_dk sched v = Ok (out, None) /\ ~ In (bchr 0) out /\
  pay_read pay_lk pay_dk (InMem (MInput out 0)) = Throw RuntimeError.
Proof.
  exists (pay_doc [s2b "hello"]), [1000; 1000; 9]. eexists. split; [vm_compute; reflexivity|]. split; [|vm_compute; reflexivity].
  intros K. repeat (destruct K as [K|K]; [discriminate K|]). destruct K.
Qed.

(** A null (or any scalar) where the length path goes on: no length is written. *)
Theorem C29_length_lost_refuted : exists v lk dk out v',
  vat v (keys dk) = Some (VBlob [s2b "hello"]) /\ pay_write lk dk [] v = Ok (out, None) /\
  pay_read lk dk (InMem (MInput out 0)) = Ok v' /\ vat v' (keys dk) = None.
Proof.
  exists (VMap [(s2b "data", VBlob [s2b "hello"]); (s2b "info", VNull)]), [s2b "info"; s2b "length"], [s2b "data"]. eexists _, _.
  (split; [vm_compute; reflexivity|]). split; [vm_compute; reflexivity|]. split; [vm_compute; reflexivity|]. vm_compute. reflexivity.
Qed.

(** A length path through a list: past the end nothing is written for it... *)
Theorem C29_list_length_refuted : exists n v lp, forall k,
  ~ In (EvUns k) (fst (payload_emit n v (Some lp) (Some (keys [s2b "data"])))) /\
  snd (payload_emit n v (Some lp) (Some (keys [s2b "data"]))) = None.
Proof.
  exists 5, (VMap [(s2b "data", VBlob [s2b "hello"]); (s2b "l", VList [])]), [PKey (s2b "l"); PIdx 0]. intros k. split; [|reflexivity].
  vm_compute. intros K. repeat (destruct K as [K|K]; [discriminate K|]). destruct K.
Qed.
(** ... and onto an element that exists, 2^32 nulls, less the elements there are, follow. *)
Lemma list_nulls n x : payload_emit n (VList [x]) (Some [PIdx 0]) None =
  (EvBeginList 1 :: EvUns n :: repeat EvNull (N.to_nat (2^32 - 1)) ++ [EvUns n; EvEndList], None).
Proof.
  cbn [payload_emit keys List.map emit_length]. change (llen [x]) with 1. generalize (repeat EvNull (N.to_nat (2^32 - 1))). intros r.
  unfold step_idx. replace (0 <? 1) with true by reflexivity. replace (1 <=? 0) with false by reflexivity. replace (0 =? 0) with true by reflexivity.
  destruct x; cbn [payload_emit ethen ecall fst snd app emit_value flat_map]; rewrite <- app_assoc; reflexivity.
Qed.
Theorem C29_list_length_nulls_refuted : exists n v lp a b, llen b = 2^32 - 1 /\ Forall (fun e => e = EvNull) b /\
  payload_emit n v (Some lp) (Some (keys [s2b "data"])) = (a ++ b ++ [EvUns n; EvEndList; EvEndMap], None).
Proof.
  exists 5, (VMap [(s2b "l", VList [VNull])]), [PKey (s2b "l"); PIdx 0].
  exists [EvBeginMap 1; EvStr (s2b "l"); EvBeginList 1; EvUns 5], (repeat EvNull (N.to_nat (2^32 - 1))).
  split; [unfold llen; rewrite repeat_length, N2Nat.id; reflexivity|]. split; [apply Forall_forall; intros e K; eapply repeat_spec, K|].
  pose proof (list_nulls 5 VNull) as E. revert E. generalize (repeat EvNull (N.to_nat (2^32 - 1))). intros r E.
  remember (VList [VNull]) as l. cbn [payload_emit keys List.map fst snd mget step_key]. subst l.
  replace (beqb (s2b "l") (s2b "l")) with true by reflexivity. replace (beqb (s2b "l") (s2b "data")) with false by reflexivity.
  replace (beqb (s2b "data") (s2b "l")) with false by reflexivity.
  rewrite E. cbn [ethen ecall fst snd app]. rewrite <- !app_assoc. reflexivity.
Qed.

(** The number of entries announced when a map begins is not the number that follow, for the
    default paths already: formats that write it down (MessagePack) get a broken document. *)
Theorem C29_map_count_refuted : exists n v es,
  payload_emit n v (Some (keys pay_lk)) (Some (keys pay_dk)) = (EvBeginMap 0 :: EvStr (s2b "payload") :: es, None).
Proof. exists 5, (VMap [(s2b "payload", VMap [(s2b "data", VBlob [s2b "hello"])])]). eexists. vm_compute. reflexivity. Qed.

(** 2^32 bytes of payload: the length recorded is 0. *)
Theorem C29_long_payload_refuted : exists b, llen (List.concat b) = 2^32 /\
  payload_of (pay_doc b) (PParams (keys pay_dk) (keys pay_lk) false None) = Ok (Some b, 0).
Proof.
  set (half := repeat (bchr 0) (N.to_nat (2^31))). assert (L : N.of_nat (List.length half) = 2^31) by (subst half; rewrite repeat_length, N2Nat.id; reflexivity).
  exists [half; half]. clearbody half. split; [cbn [List.concat]; rewrite app_nil_r, llen_app; unfold llen; lia|].
  assert (E : vat (pay_doc [half; half]) (keys pay_dk) = Some (VBlob [half; half])) by reflexivity.
  unfold payload_of. cbn [pp_data pp_override]. rewrite E. unfold total_length. cbn [fold_left rbind]. rewrite L. reflexivity.
Qed.

(** A bundle header read from a stream whose buffer is full: the byte behind the buffer is
    looked at. *)
Definition bundle_run (i : pinput) : res value :=
  do (v, _) <- deserialize_payload (bundle_parse 1000 []) 1000 i (PParams (keys [bundle_data]) (keys [bundle_length]) false None); Ok v.
Theorem C29_bundle_stream_refuted : exists text,
  bundle_run (InStream (si_new 8 (Source text []))) = UB /\
  exists v, bundle_run (InMem (MInput text 0)) = Ok v /\ vat v (keys [bundle_data]) = Some (VBlob [s2b "hello"]).
Proof.
  exists (s2b "abcdefghijkl: 5" ++ [bchr 10] ++ s2b "payload.length: 5" ++ [bchr 10; bchr 10; bchr 0] ++ s2b "hello").
  split; [vm_compute; reflexivity|]. eexists. split; vm_compute; reflexivity.
Qed.
