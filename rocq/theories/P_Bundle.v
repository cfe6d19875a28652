(** C37: a flat map of text keys to scalars and lists written as a bundle header parses back. *)
From Verif Require Import Base CNum Float FloatProofs FloatText FloatTextProofs P_FloatText Value Emit Convert Builder ParserInput ParserInputProofs P_ParserInput
  JSONEmitter JSONEmitterProofs GuessFormat P_GuessFormat Regex GuessScalar Deserialize P_JSONInput JsonTextProofs JsonGrammar JsonTree P_JSONEmit P_GuessScalar Bundle BundleRead.
Open Scope N_scope.

(** ** What is written *)

(** The text of a scalar. *)
Definition scalar_text (v : value) : option bytes :=
  match v with
  | VNull => Some []
  | VBool b => Some (s2b (if b then "1" else "0"))
  | VInt z => Some (dec_of_Z z)
  | VUns n => Some (dec_of_N n)
  | VFlt x => Some (print_g 17 (d_of_ld x))
  | VStr s => Some (c_str s)
  | VList _ | VMap _ | VBlob _ => None
  end.
(** The text of an entry's value: a list is its elements, each followed by a bar, or one bar. *)
Inductive value_text : value -> bytes -> Prop :=
| vt_scalar v t : scalar_text v = Some t -> value_text v t
| vt_nil : value_text (VList []) (s2b "|")
| vt_list v l t ts : scalar_text v = Some t -> Forall2 (fun v t => scalar_text v = Some t) l ts ->
    value_text (VList (v :: l)) (flat_map (fun t => t ++ s2b "|") (t :: ts)).
(** The lines of a map. *)
Inductive map_text : list (bytes * value) -> bytes -> Prop :=
| mt_nil : map_text [] []
| mt_cons k v t m s : value_text v t -> map_text m s -> map_text ((k, v) :: m) (c_str k ++ s2b ": " ++ t ++ bchr 10 :: s).
Definition heading : bytes := s2b "bundle.version: 0.0" ++ [bchr 10].

(** The bytes an output that takes parts of what it is given has received, and the exception
    the emitter ended with. *)
Definition bundle_document (fuel : nat) (sched : list N) (v : value) : res (bytes * option exn) :=
  do (_, w, x) <- be_run ck_write fuel be_prec BE_START (Chunky sched []) (emit_value v);
  Ok (ck_got w, x).

Definition is_scalar (v : value) : Prop := match v with VList _ | VMap _ | VBlob _ => False | _ => True end.
Definition is_flat (v : value) : Prop :=
  exists m, v = VMap m /\ Forall (fun kv => is_scalar (snd kv) \/ exists l, snd kv = VList l /\ Forall is_scalar l) m.

(** ** Proofs about writing *)

Fixpoint be_trace (prec : N) (st : best) (es : list eev) : list bytes * best * option exn :=
  match es with
  | [] => ([], st, None)
  | e :: t => let '(ts, st1, x) := be_calls prec st e in
              match x with
              | Some _ => (ts, st1, x)
              | None => let '(us, st2, y) := be_trace prec st1 t in (ts ++ us, st2, y)
              end
  end.

Lemma be_writes_ok fuel : forall ts w, Forall (fun t => (List.length (ck_sched w) + List.length t < fuel)%nat /\ llen t < 2^32) ts ->
  exists w', be_writes ck_write fuel w ts = Ok (w', None) /\ ck_got w' = ck_got w ++ List.concat ts /\
    (List.length (ck_sched w') <= List.length (ck_sched w))%nat.
Proof.
  induction ts as [|t ts IH]; intros w F; cbn [be_writes List.concat].
  - exists w. rewrite app_nil_r. auto.
  - inversion F as [|? ? [F1 F2] F3]; subst.
    destruct (write_loop_ok ck_write ck_got (fun _ => True) (fun w => List.length (ck_sched w)) None RuntimeError (2^32-1) ck_max ck_write_ok
                fuel w t 0 I ltac:(lia) ltac:(lia)) as (w1 & x & E & P).
    { unfold llen. lia. }
    rewrite E. cbn [rbind]. destruct P as (_ & P1 & P2). destruct x as [e|]; [destruct P2 as (_ & _ & [])|].
    rewrite drop_0 in P2. destruct (IH w1) as (w2 & E2 & G2 & L2).
    { eapply Forall_impl; [|exact F3]. cbv beta. intros a [A1 A2]. split; [lia|exact A2]. }
    exists w2. rewrite E2, G2, P2, <- app_assoc. repeat split; auto. lia.
Qed.

Lemma be_run_ok fuel prec : forall es st w ts st' x, be_trace prec st es = (ts, st', x) ->
  Forall (fun t => (List.length (ck_sched w) + List.length t < fuel)%nat /\ llen t < 2^32) ts ->
  exists w', be_run ck_write fuel prec st w es = Ok (st', w', x) /\ ck_got w' = ck_got w ++ List.concat ts.
Proof.
  induction es as [|e es IH]; intros st w ts st' x H F; cbn [be_trace be_run] in *.
  - injection H as <- <- <-. exists w. cbn. rewrite app_nil_r. auto.
  - destruct (be_calls prec st e) as [[us s1] y] eqn:E. destruct y as [e1|].
    + injection H as <- <- <-. destruct (be_writes_ok fuel us w F) as (w1 & E1 & G1 & _). rewrite E1. cbn [rbind]. eauto.
    + destruct (be_trace prec s1 es) as [[us2 s2] z] eqn:E2. injection H as <- <- <-. apply Forall_app in F as [F1 F2].
      destruct (be_writes_ok fuel us w F1) as (w1 & E1 & G1 & L1). rewrite E1. cbn [rbind].
      destruct (IH s1 w1 us2 s2 z E2) as (w2 & E3 & G2).
      { eapply Forall_impl; [|exact F2]. cbv beta. intros a [A1 A2]. split; [lia|exact A2]. }
      exists w2. rewrite E3, G2, G1, concat_app, app_assoc. auto.
Qed.

Lemma be_trace_app prec : forall a b st ts st1, be_trace prec st a = (ts, st1, None) ->
  be_trace prec st (a ++ b) = let '(us, st2, y) := be_trace prec st1 b in (ts ++ us, st2, y).
Proof.
  induction a as [|e a IH]; intros b st ts st1 H; cbn [be_trace app] in *.
  - injection H as <- <-. destruct (be_trace prec st b) as [[? ?] ?]. reflexivity.
  - destruct (be_calls prec st e) as [[us s1] y]. destruct y; [discriminate|].
    destruct (be_trace prec s1 a) as [[vs s2] z] eqn:E. injection H as <- <- ->.
    rewrite (IH b s1 vs s2 E). destruct (be_trace prec s2 b) as [[? ?] ?]. rewrite app_assoc. reflexivity.
Qed.

(** The pieces a scalar is written as, whatever its size. *)
Definition cut (t : bytes) : bytes := take (wrap32 (llen t)) t.
Lemma cut_small t : llen t < 2^32 -> cut t = t.
Proof. intros H. unfold cut, wrap32. rewrite N.mod_small by exact H. apply take_all. lia. Qed.

Lemma trace_scalar v t st : scalar_text v = Some t -> be_trace be_prec st (emit_value v) =
  let '(ts, st1, x) := be_value st t in match x with Some _ => (ts, st1, x) | None => (ts ++ [], st1, None) end.
Proof. destruct v as [|[]| | | | | | |]; cbn [scalar_text]; intros [= <-]; reflexivity. Qed.
Lemma scalar_has_text v : is_scalar v <-> exists t, scalar_text v = Some t.
Proof. destruct v; cbn; split; try tauto; try (intros []; discriminate); eauto. Qed.

Lemma be_value_small st t : llen t < 2^32 -> be_value st t =
  match st with
  | BE_KEY => ([t; s2b ": "], BE_VALUE, None)
  | BE_VALUE => ([t; nl], BE_KEY, None)
  | BE_LIST_START => ([t], BE_LIST, None)
  | BE_LIST => ([s2b "|"; t], BE_LIST, None)
  | _ => ([], st, Some RuntimeError)
  end.
Proof. intros H. unfold be_value. fold (cut t). rewrite (cut_small t H). reflexivity. Qed.

Lemma list_trace l ts : Forall2 (fun v t => scalar_text v = Some t) l ts -> Forall (fun t => llen t < 2^32) ts ->
  exists us, be_trace be_prec BE_LIST (flat_map emit_value l) = (us, BE_LIST, None) /\ List.concat us = flat_map (fun t => s2b "|" ++ t) ts.
Proof.
  induction 1 as [|v t l ts H _ IH]; intros F; cbn [flat_map].
  - exists []. auto.
  - inversion F; subst. destruct IH as (us & E & G); [assumption|].
    erewrite be_trace_app; [|rewrite (trace_scalar _ _ _ H), be_value_small by assumption; reflexivity].
    rewrite E. eexists. split; [reflexivity|]. rewrite concat_app, G. cbn. rewrite app_nil_r. reflexivity.
Qed.
Lemma bars_shift t ts : flat_map (fun t => t ++ s2b "|") (t :: ts) = t ++ flat_map (fun t => s2b "|" ++ t) ts ++ s2b "|".
Proof.
  revert t. induction ts as [|u ts IH]; intros t; cbn [flat_map] in *; [rewrite app_nil_r; reflexivity|].
  rewrite IH. rewrite <- !app_assoc. reflexivity.
Qed.
Lemma part_small (f : bytes -> bytes) ts : (forall t, llen t <= llen (f t)) -> llen (flat_map f ts) < 2^32 -> Forall (fun t => llen t < 2^32) ts.
Proof.
  intros H. induction ts as [|t ts IH]; cbn [flat_map]; [constructor|]. rewrite llen_app. intros L. specialize (H t).
  constructor; [lia|apply IH; lia].
Qed.

Lemma value_trace v t : value_text v t -> llen t < 2^32 ->
  exists us, be_trace be_prec BE_VALUE (emit_value v) = (us, BE_KEY, None) /\ List.concat us = t ++ nl.
Proof.
  intros V L. inversion V as [v0 t0 H| |v0 l t0 ts H F]; subst.
  - rewrite (trace_scalar _ _ _ H), be_value_small by exact L. eexists. split; [reflexivity|]. reflexivity.
  - eexists. split; reflexivity.
  - assert (P : Forall (fun t => llen t < 2^32) (t0 :: ts)) by (apply (part_small (fun t => t ++ s2b "|")); [intros; rewrite llen_app; lia|exact L]).
    inversion P as [|? ? P1 P2]; subst. destruct (list_trace l ts F P2) as (us & E & G).
    rewrite bars_shift. cbn [emit_value be_trace be_calls flat_map].
    rewrite <- app_assoc. erewrite be_trace_app; [|rewrite (trace_scalar _ _ _ H), be_value_small by exact P1; reflexivity].
    erewrite be_trace_app by exact E. cbn [be_trace be_calls]. eexists. split; [reflexivity|].
    cbn [app List.concat]. rewrite concat_app, G. cbn [List.concat]. rewrite app_nil_r, <- !app_assoc. reflexivity.
Qed.
Lemma map_trace m s : map_text m s -> llen s < 2^32 ->
  exists us, be_trace be_prec BE_KEY (flat_map (fun kv => EvStr (c_str (fst kv)) :: emit_value (snd kv)) m) = (us, BE_KEY, None) /\ List.concat us = s.
Proof.
  induction 1 as [|k v t m s V _ IH]; intros L; cbn [flat_map fst snd].
  - exists []. auto.
  - rewrite !llen_app, llen_cons in L.
    destruct (value_trace v t V ltac:(lia)) as (us & E & G). destruct (IH ltac:(lia)) as (us2 & E2 & G2).
    cbn [app be_trace be_calls]. rewrite be_value_small by lia. erewrite be_trace_app by exact E. rewrite E2.
    eexists. split; [reflexivity|]. cbn [app List.concat]. rewrite !concat_app, G, G2, <- !app_assoc. reflexivity.
Qed.

Lemma pieces_fit (ts : list bytes) n fuel : llen (List.concat ts) < 2^32 -> (n + List.length (List.concat ts) < fuel)%nat ->
  Forall (fun t => (n + List.length t < fuel)%nat /\ llen t < 2^32) ts.
Proof.
  induction ts as [|t ts IH]; cbn [List.concat]; [constructor|]. rewrite llen_app, app_length. intros A B.
  constructor; [lia|apply IH; lia].
Qed.

(** ** Theorem: a map of scalars and lists of scalars is written as a heading and one line per
    entry, whatever parts the output takes at a time. *)
Theorem C37_written : forall m s sched fuel, map_text m s -> llen s < 2^31 ->
  (List.length sched + List.length s + 100 < fuel)%nat ->
  bundle_document fuel sched (VMap m) = Ok (heading ++ s, None).
Proof.
  intros m s sched fuel M L Hf. unfold bundle_document. destruct (map_trace m s M ltac:(lia)) as (us & E & G).
  assert (T : be_trace be_prec BE_START (emit_value (VMap m)) = (version_line :: us ++ [], BE_END, None)).
  { cbn [emit_value be_trace be_calls]. erewrite be_trace_app by exact E. reflexivity. }
  assert (Hl : List.length version_line = 20%nat) by reflexivity.
  destruct (be_run_ok fuel be_prec _ _ (Chunky sched []) _ _ _ T) as (w & R & K).
  { apply pieces_fit; cbn [List.concat]; rewrite app_nil_r, G; [rewrite llen_app; unfold llen at 1; rewrite Hl; lia|].
    rewrite app_length, Hl. cbn [ck_sched]. lia. }
  rewrite R. cbn [rbind]. rewrite K. cbn [ck_got app List.concat]. rewrite app_nil_r, G. reflexivity.
Qed.
Print Assumptions C37_written.

Lemma write_loop_chunky fuel : forall w t n w' x, write_loop ck_write fuel w t n = Ok (w', x) -> x = None.
Proof.
  induction fuel as [|f IH]; intros w t n w' x; cbn [write_loop]; [discriminate|]. destruct (n <? llen t); [|intros [= _ <-]; reflexivity].
  unfold ck_write at 1. destruct (ck_sched w); apply IH.
Qed.
Lemma be_writes_chunky fuel : forall ts w w' x, be_writes ck_write fuel w ts = Ok (w', x) -> x = None.
Proof.
  induction ts as [|t ts IH]; intros w w' x; cbn [be_writes]; [intros [= _ <-]; reflexivity|].
  destruct (write_loop ck_write fuel w t 0) as [[w1 y]| | | |] eqn:E; cbn [rbind]; try discriminate.
  apply write_loop_chunky in E as ->. apply IH.
Qed.
Lemma be_run_trace fuel prec : forall es st w st' w' x, be_run ck_write fuel prec st w es = Ok (st', w', x) ->
  exists ts, be_trace prec st es = (ts, st', x).
Proof.
  induction es as [|e es IH]; intros st w st' w' x; cbn [be_run be_trace]; [intros [= <- _ <-]; eauto|].
  destruct (be_calls prec st e) as [[us s1] y].
  destruct (be_writes ck_write fuel w us) as [[w1 z]| | | |] eqn:E; cbn [rbind]; try discriminate. apply be_writes_chunky in E as ->.
  destruct y as [e1|]; [intros [= <- _ <-]; eauto|]. intros H. apply IH in H as (ts & ->). eauto.
Qed.
Lemma be_trace_stop prec : forall a b st ts st1 e, be_trace prec st a = (ts, st1, Some e) -> be_trace prec st (a ++ b) = (ts, st1, Some e).
Proof.
  induction a as [|x a IH]; intros b st ts st1 e H; cbn [be_trace app] in *; [discriminate|].
  destruct (be_calls prec st x) as [[us s1] y]. destruct y; [exact H|].
  destruct (be_trace prec s1 a) as [[vs s2] z] eqn:E. injection H as <- <- ->. rewrite (IH b s1 vs s2 e E). reflexivity.
Qed.
Lemma be_trace_pre prec a b st : let '(ts, st1, x) := be_trace prec st a in
  match x with
  | Some e => be_trace prec st (a ++ b) = (ts, st1, Some e)
  | None => be_trace prec st (a ++ b) = let '(us, st2, y) := be_trace prec st1 b in (ts ++ us, st2, y)
  end.
Proof.
  destruct (be_trace prec st a) as [[ts st1] x] eqn:E. destruct x; [apply be_trace_stop, E|apply be_trace_app, E].
Qed.

Lemma trace_elem v st : st = BE_LIST_START \/ st = BE_LIST ->
  (is_scalar v /\ exists ts, be_trace be_prec st (emit_value v) = (ts, BE_LIST, None)) \/
  (~ is_scalar v /\ exists ts st1, be_trace be_prec st (emit_value v) = (ts, st1, Some RuntimeError)).
Proof.
  intros S. destruct v as [|[]| | | | | | |].
  1-7: left; split; [exact I|]; destruct S as [-> | ->]; eexists; reflexivity.
  all: right; split; [intros []|]; destruct S as [-> | ->]; eexists _, _; reflexivity.
Qed.
Lemma trace_elems : forall l st, st = BE_LIST_START \/ st = BE_LIST ->
  (Forall is_scalar l /\ exists ts st1, be_trace be_prec st (flat_map emit_value l) = (ts, st1, None) /\ (st1 = BE_LIST_START \/ st1 = BE_LIST)) \/
  (~ Forall is_scalar l /\ exists ts st1, be_trace be_prec st (flat_map emit_value l) = (ts, st1, Some RuntimeError)).
Proof.
  induction l as [|v l IH]; intros st S; cbn [flat_map].
  - left. split; [constructor|]. exists [], st. auto.
  - destruct (trace_elem v st S) as [[A (ts & E)]|[A (ts & st1 & E)]].
    + destruct (IH BE_LIST (or_intror eq_refl)) as [[B (us & s2 & E2 & S2)]|[B (us & s2 & E2)]].
      * left. split; [constructor; auto|]. erewrite be_trace_app by exact E. rewrite E2. eauto 10.
      * right. split; [intros F; inversion F; auto|]. erewrite be_trace_app by exact E. rewrite E2. eauto.
    + right. split; [intros F; inversion F; auto|]. erewrite be_trace_stop by exact E. eauto.
Qed.
Lemma trace_entry v : ((is_scalar v \/ exists l, v = VList l /\ Forall is_scalar l) /\ exists ts, be_trace be_prec BE_VALUE (emit_value v) = (ts, BE_KEY, None)) \/
  (~ (is_scalar v \/ exists l, v = VList l /\ Forall is_scalar l) /\ exists ts st1, be_trace be_prec BE_VALUE (emit_value v) = (ts, st1, Some RuntimeError)).
Proof.
  destruct v as [|[]| | | | |l|m|b].
  1-7: left; split; [left; exact I|]; eexists; reflexivity.
  - cbn [emit_value be_trace be_calls]. destruct (trace_elems l BE_LIST_START (or_introl eq_refl)) as [[A (ts & s1 & E & S1)]|[A (ts & s1 & E)]].
    + left. split; [right; eauto|]. erewrite be_trace_app by exact E. destruct S1 as [-> | ->]; eexists; reflexivity.
    + right. split; [intros [[]|(l' & [= <-] & F)]; auto|]. erewrite be_trace_stop by exact E. eauto.
  - right. split; [intros [[]|(l' & [=] & F)]|]. eexists _, _. reflexivity.
  - right. split; [intros [[]|(l' & [=] & F)]|]. eexists _, _. reflexivity.
Qed.
Lemma trace_entries : forall m,
  (Forall (fun kv => is_scalar (snd kv) \/ exists l, snd kv = VList l /\ Forall is_scalar l) m /\
   exists ts, be_trace be_prec BE_KEY (flat_map (fun kv : bytes * value => EvStr (c_str (fst kv)) :: emit_value (snd kv)) m) = (ts, BE_KEY, None)) \/
  (~ Forall (fun kv => is_scalar (snd kv) \/ exists l, snd kv = VList l /\ Forall is_scalar l) m /\
   exists ts st1, be_trace be_prec BE_KEY (flat_map (fun kv : bytes * value => EvStr (c_str (fst kv)) :: emit_value (snd kv)) m) = (ts, st1, Some RuntimeError)).
Proof.
  induction m as [|[k v] m IH]; cbn [flat_map fst snd].
  - left. split; [constructor|]. exists []. reflexivity.
  - cbn [app be_trace be_calls be_value]. destruct (trace_entry v) as [[A (ts & E)]|[A (ts & st1 & E)]].
    + destruct IH as [[B (us & E2)]|[B (us & s2 & E2)]].
      * left. split; [constructor; auto|]. erewrite be_trace_app by exact E. rewrite E2. eauto.
      * right. split; [intros F; inversion F; auto|]. erewrite be_trace_app by exact E. rewrite E2. eauto.
    + right. split; [intros F; inversion F; auto|]. erewrite be_trace_stop by exact E. eauto.
Qed.

(** Writing succeeds on flat maps and on nothing else. *)
Theorem C37_flat_exactly : forall fuel sched v got x, bundle_document fuel sched v = Ok (got, x) ->
  (is_flat v -> x = None) /\ (~ is_flat v -> x = Some RuntimeError).
Proof.
  intros fuel sched v got x H. unfold bundle_document in H.
  destruct (be_run ck_write fuel be_prec BE_START (Chunky sched []) (emit_value v)) as [[[st w] y]| | | |] eqn:E; cbn [rbind] in H; try discriminate.
  injection H as _ <-. apply be_run_trace in E as (ts & E).
  assert (K : (is_flat v /\ y = None) \/ (~ is_flat v /\ y = Some RuntimeError)).
  { destruct v as [|[]| | | | |l|m|b].
    1-7: right; split; [intros (m & [=] & _)|cbn in E; congruence].
    - right. split; [intros (m & [=] & _)|cbn in E; congruence].
    - cbn [emit_value be_trace be_calls] in E. destruct (trace_entries m) as [[A (us & E2)]|[A (us & s2 & E2)]].
      + left. split; [exists m; auto|]. erewrite be_trace_app in E by exact E2. cbn in E. congruence.
      + right. split; [intros (m' & [= <-] & F); auto|]. erewrite be_trace_stop in E by exact E2. congruence.
    - right. split; [intros (m & [=] & _)|cbn in E; congruence]. }
  destruct K as [[K ->]|[K ->]]; split; congruence.
Qed.
Print Assumptions C37_flat_exactly.

(** ** What comes back *)

Definition key_ok (k : bytes) : Prop :=
  Forall (fun c => ~ In (bval c) [0; 9; 10; 32; 35; 58]) k /\ k <> s2b "bundle.version" /\
  (forall c t, k = c :: t -> ~ blank_text [c]).

(** The text, blanks around it aside, spells a scalar. *)
Definition means_scalar (s : bytes) : Prop := exists a t b f, s = a ++ t ++ b /\ blank_text a /\ blank_text b /\ spelled f t.

(** Strings that survive as the value of a key, and as an element of a list. *)
Definition kept_string (s : bytes) : Prop :=
  Forall (fun c => ~ In (bval c) [0; 10; 35]) s /\
  (forall c t, s = c :: t -> ~ blank_text [c]) /\ (forall c t, s = t ++ [c] -> ~ blank_text [c]) /\
  (exists n t, s = repeat "|"%char n ++ t /\ Forall (fun c => bval c <> 124) t /\ (t = [] -> n = O)) /\
  ~ means_scalar s.
Definition kept_element (s : bytes) : Prop :=
  s <> [] /\ Forall (fun c => ~ In (bval c) [0; 10; 35; 124]) s /\ ~ means_scalar s.

Definition good_scalar (P : bytes -> Prop) (v : value) : Prop :=
  match v with
  | VBool _ => True
  | VInt z => (- 2^63 <= z < 2^63)%Z
  | VUns n => n < 2^64
  | VFlt x => exists d, is_double d /\ f_finite d = true /\ x = ld_of_d d
  | VStr s => P s
  | _ => False
  end.
Definition good (v : value) : Prop :=
  good_scalar kept_string v \/
  exists l, v = VList l /\ Forall (good_scalar kept_element) l /\ (forall c s l', l = VStr (c :: s) :: l' -> ~ blank_text [c]).

(** An integer comes back as a signed one if it fits (the largest one possibly as an unsigned
    one, if errno was set before), a boolean as 0 or 1. *)
Definition whole (z : Z) (v : value) : Prop := ((z < 2^63)%Z /\ v = VInt z) \/ ((2^63 - 1 <= z)%Z /\ v = VUns (Z.to_N z)).
Inductive carried_scalar : value -> value -> Prop :=
| cs_bool b : carried_scalar (VBool b) (VInt (if b then 1 else 0))
| cs_int z v : whole z v -> carried_scalar (VInt z) v
| cs_uns n v : whole (Z.of_N n) v -> carried_scalar (VUns n) v
| cs_flt x : carried_scalar (VFlt x) (VFlt x)
| cs_str s : carried_scalar (VStr s) (VStr s).
Inductive carried : value -> value -> Prop :=
| ca_scalar v w : carried_scalar v w -> carried v w
| ca_list l l' : Forall2 carried_scalar l l' -> carried (VList l) (VList l').

(** ** Proofs about reading *)

Lemma blank1 c : blank_text [c] <-> is_space c = true.
Proof. rewrite blank_b. cbn. rewrite andb_true_r. reflexivity. Qed.
Lemma nblank1 c : ~ blank_text [c] <-> is_space c = false.
Proof. rewrite blank1. destruct (is_space c); intuition congruence. Qed.

Lemma skip_space_ink c s : is_space c = false -> skip_space (c :: s) = c :: s.
Proof. intros H. unfold skip_space. cbn. rewrite H. reflexivity. Qed.
Lemma skip_space_head s : (forall c t, s = c :: t -> is_space c = false) -> skip_space s = s.
Proof. destruct s as [|c t]; [reflexivity|]. intros H. apply skip_space_ink. eapply H. reflexivity. Qed.
Lemma drop_trailing_id s : (forall c t, s = t ++ [c] -> is_space c = false) -> drop_trailing s = s.
Proof.
  intros H. unfold drop_trailing. rewrite skip_space_head; [apply rev_involutive|]. intros c t E.
  apply (H c (rev t)). rewrite <- (rev_involutive s), E. reflexivity.
Qed.
Lemma c_str_id s : Forall (fun c => bval c <> 0) s -> c_str s = s.
Proof.
  induction 1 as [|c s H _ IH]; [reflexivity|]. cbn [c_str]. assert (aeqb c (bchr 0) = false) as ->.
  { apply aeqb_neq. intros ->. apply H. reflexivity. }
  rewrite IH. reflexivity.
Qed.
Lemma trim_id v : Forall (fun c => bval c <> 0) v -> (forall c t, v = t ++ [c] -> is_space c = false) -> trim_value v = v.
Proof.
  intros N H. unfold trim_value. rewrite (c_str_id v N), (drop_trailing_id v H), Nat.sub_diag, skipn_all. cbn. apply app_nil_r.
Qed.

Lemma scan_key_ok k r : Forall (fun c => ~ In (bval c) [0; 9; 10; 32; 35; 58]) k -> scan_key (k ++ ":"%char :: r) = Some (k, ":"%char :: r).
Proof.
  induction 1 as [|c k H _ IH]; [reflexivity|]. cbn [app scan_key]. rewrite IH.
  assert (A : (aeqb c ":" || aeqb c " " || aeqb c (bchr 9))%bool = false).
  { apply not_true_is_false. intros T. apply H. rewrite !orb_true_iff, !aeqb_eq in T. cbn [In].
    destruct T as [[-> | ->]| ->]; cbn; auto 10. }
  rewrite A. assert (aeqb c "#" = false) as ->; [|reflexivity]. apply aeqb_neq. intros ->. apply H. cbn. auto 10.
Qed.
Lemma scan_line_kv k t : key_ok k -> scan_line (k ++ s2b ": " ++ t) = Some (k, fst (span (fun c => negb (aeqb c "#")) (skip_space t))).
Proof.
  intros (K1 & _ & K2). unfold scan_line. destruct (k ++ s2b ": " ++ t) as [|c0 l0] eqn:E0; [destruct k; discriminate|]. rewrite <- E0. clear c0 l0 E0.
  change (s2b ": " ++ t) with (":"%char :: " "%char :: t).
  rewrite skip_space_head.
  - rewrite scan_key_ok by exact K1. rewrite skip_space_ink by reflexivity. cbn [aeqb Ascii.eqb Bool.eqb].
    change (aeqb ":" ":") with true. cbv iota. do 3 f_equal. unfold skip_space at 1. cbn. destruct (span is_space t) as [a b] eqn:E. cbn. unfold skip_space. rewrite E. reflexivity.
  - intros c u E. destruct k as [|d k]; cbn [app] in E; injection E as <- _; [reflexivity|]. apply nblank1. eapply K2. reflexivity.
Qed.

Definition clean (t : bytes) : Prop :=
  Forall (fun c => ~ In (bval c) [0; 10; 35]) t /\ (forall c u, t = c :: u -> is_space c = false) /\ (forall c u, t = u ++ [c] -> is_space c = false).

Lemma key_id k : key_ok k -> c_str k = k.
Proof. intros (K & _). apply c_str_id. eapply Forall_impl; [|exact K]. cbv beta. intros c H E. apply H. rewrite E. cbn. auto. Qed.
Lemma key_beqb k : key_ok k -> beqb (c_str k) version_key = false.
Proof. intros K. rewrite key_id by exact K. destruct K as (_ & K & _). destruct (beqb k version_key) eqn:E; [|reflexivity]. apply beqb_eq in E. destruct (K E). Qed.

Lemma entry_clean k t : key_ok k -> clean t -> entry (k ++ s2b ": " ++ t) = Some (k, t).
Proof.
  intros K (T1 & T2 & T3). unfold entry. rewrite scan_line_kv by exact K. rewrite key_beqb by exact K. rewrite key_id by exact K.
  rewrite skip_space_head by exact T2. rewrite span_none.
  - cbn [fst]. rewrite trim_id; [reflexivity| |exact T3]. eapply Forall_impl; [|exact T1]. cbv beta. intros c H E. apply H. rewrite E. cbn. auto.
  - apply forallb_forall. intros c I. rewrite Forall_forall in T1. apply T1 in I. apply negb_true_iff, aeqb_neq. intros ->. apply I. cbn. auto 10.
Qed.
Lemma clean_no_nl t : Forall (fun c => ~ In (bval c) [0; 10; 35]) t -> no_nl t.
Proof.
  intros T. apply forallb_forall. intros c I. rewrite Forall_forall in T. apply T in I. apply negb_true_iff, aeqb_neq. intros ->. apply I. cbn. auto 10.
Qed.
Lemma key_no_nl k : key_ok k -> no_nl k.
Proof.
  intros (K & _). apply forallb_forall. intros c I. rewrite Forall_forall in K. apply K in I. apply negb_true_iff, aeqb_neq. intros ->. apply I. cbn. auto 10.
Qed.
Lemma no_nl_app a b : no_nl a -> no_nl b -> no_nl (a ++ b).
Proof. unfold no_nl. rewrite forallb_app. intros -> ->. reflexivity. Qed.

(** *** Single scalars *)

Definition wch (c : ascii) : bool := negb (is_space c) && negb (existsb (N.eqb (bval c)) [0; 10; 35; 124]).
Lemma fch_wch t : forallb fch t = true -> forallb wch t = true.
Proof.
  rewrite !forallb_forall. intros H c I. apply H in I.
  assert (S : forallb (fun c => implb (fch c) (wch c)) all_bytes = true) by (vm_compute; reflexivity).
  pose proof (sweep _ S c) as T. cbv beta in T. rewrite I in T. exact T.
Qed.
Lemma wch_spec c : wch c = true -> is_space c = false /\ ~ In (bval c) [0; 10; 35; 124].
Proof.
  unfold wch. rewrite andb_true_iff, !negb_true_iff. intros [A B]. split; [exact A|]. intros I.
  assert (E : existsb (N.eqb (bval c)) [0; 10; 35; 124] = true); [|congruence]. apply existsb_exists. exists (bval c). split; [exact I|apply N.eqb_refl].
Qed.

Lemma guess_float stale t sg ip fp ex : spelled (FFloat sg ip fp ex) t -> guess_scalar stale t = GFlt (strtod t).
Proof.
  intros S. destruct (spelled_inky _ _ S) as [NE INK].
  destruct (trim_text [] t [] eq_refl eq_refl NE INK) as (T1 & T2 & T3). cbn [app] in *. rewrite app_nil_r in *.
  unfold guess_scalar. rewrite T1, T2, T3. destruct (float_fch _ _ _ _ _ S) as [F1 F2].
  destruct (not_words (forallb fch) ltac:(vm_compute; reflexivity) _ F1) as (-> & -> & ->).
  assert (rmatch re_int10 t = false) as -> by (eapply false_of; [apply int10_nch|rewrite F2; discriminate]).
  assert (rmatch re_int8 t = false) as ->.
  { eapply false_of; [intros M; apply spell_oct in M; exact M|]. intros (v' & ds' & -> & _). discriminate F1. }
  assert (rmatch re_int16 t = false) as ->.
  { eapply false_of; [intros M; apply spell_hex in M; exact M|]. intros (v' & ds' & -> & _). discriminate F1. }
  assert (rmatch re_float t = true) as -> by (apply spell_float; left; eauto). reflexivity.
Qed.

Lemma float_spelled d : f_finite d = true -> exists sg ip fp ex, spelled (FFloat sg ip fp ex) (print_g 17 d).
Proof.
  intros F. assert (N : numg (fun _ => True) true (print_g 17 d) (flt_tree 17 d)) by (apply flt_num; auto).
  assert (Sg : forall neg, In (JsonGrammar.minus neg) signs) by (intros []; cbn; auto).
  assert (Ip : forall ip, int_part ip -> digits ip /\ ip <> []).
  { intros ip [-> |(c & ds & -> & D & _ & E)]; rewrite digits_b; [split; [reflexivity|discriminate]|].
    unfold JsonGrammar.digits in E. cbn. rewrite D, E. split; [reflexivity|discriminate]. }
  assert (Ex : forall e s ds, exp_part e s ds -> exponent (Some (s, ds)) (e :: s ++ ds)).
  { intros e s ds (A & B & C & D). cbn [exponent]. split; [cbn; intuition auto|]. split; [apply digits_b; exact C|]. split; [exact D|].
    exists e. split; [cbn; intuition auto|reflexivity]. }
  inversion N as [neg ip H E1 E2|neg ip fp H H1 H2 E1 E2|neg ip e s ds H H1 H2 E1 E2|neg ip fp e s ds H H1 H2 H3 E1 E2].
  - exfalso. clear - E2 F. destruct d; try discriminate. cbn [flt_tree] in E2. destruct (sci_digits _ _ _). discriminate.
  - destruct (Ip _ H). eexists _, _, _, _. replace (JsonGrammar.minus neg ++ ip ++ "."%char :: fp) with (JsonGrammar.minus neg ++ ip ++ s2b "." ++ fp ++ []) by (rewrite app_nil_r; reflexivity).
    apply (sp_float_dot _ ip fp None []); auto; [apply digits_b; exact H1|destruct ip; [congruence|discriminate]|reflexivity].
  - destruct (Ip _ H). eexists _, _, _, _. apply (sp_float_exp _ ip (s, ds)); auto.
  - destruct (Ip _ H). eexists _, _, _, _. apply (sp_float_dot _ ip fp (Some (s, ds)) (e :: s ++ ds)); auto; [apply digits_b; exact H1|destruct ip; [congruence|discriminate]].
Qed.

Lemma int_spelled z : exists sg ds, dec_of_Z z = sg ++ ds /\ In sg signs /\ digits ds /\ ds <> [] /\ (if P_GuessScalar.minus sg then - decimal ds else decimal ds)%Z = z.
Proof.
  unfold dec_of_Z. destruct (z <? 0)%Z eqn:E.
  - destruct (dec_of_N_spec (Z.to_N (- z))) as (V & D & N & _). exists (s2b "-"), (dec_of_N (Z.to_N (- z))).
    apply digits_b in D. rewrite decimal_dec by exact D. rewrite V. split; [reflexivity|]. split; [cbn; auto|]. split; [exact D|]. split; [exact N|].
    change (P_GuessScalar.minus (s2b "-")) with true. cbv iota. lia.
  - destruct (dec_of_N_spec (Z.to_N z)) as (V & D & N & _). exists [], (dec_of_N (Z.to_N z)).
    apply digits_b in D. rewrite decimal_dec by exact D. rewrite V. split; [reflexivity|]. split; [cbn; auto|]. split; [exact D|]. split; [exact N|].
    change (P_GuessScalar.minus []) with false. cbv iota. lia.
Qed.
Lemma guess_int stale z : (- 2^63 <= z < 2^64)%Z -> whole z (guess_value (guess_scalar stale (dec_of_Z z))).
Proof.
  intros R. destruct (int_spelled z) as (sg & ds & E & S & D & N & V). rewrite E.
  assert (W : exists g, worth (FInt sg ds) g).
  { destruct (Z.lt_ge_cases z (2^63)); [exists (GInt z); constructor; [auto|lia]|].
    exists (GUns (Z.to_N z)). destruct (P_GuessScalar.minus sg) eqn:M.
    - exfalso. rewrite decimal_dec in V by exact D. lia.
    - constructor; auto; lia. }
  destruct (C34_recognised_partial stale (FInt sg ds) [] (sg ++ ds) [] ltac:(constructor) ltac:(constructor) ltac:(constructor; auto) W) as [H|(-> & sg' & ds' & E' & H & G)].
  - cbn [app] in H. rewrite app_nil_r in H. inversion H as [| | |? ? z' Hz Hr Ha Hb|? ? n Hm Hn Hr Ha Hb| | | | |].
    + cbn [guess_value]. left. rewrite V in Hz. subst z'. split; [lia|reflexivity].
    + cbn [guess_value]. right. rewrite Hm in V. split; [lia|]. f_equal. lia.
  - cbn [app] in G. rewrite app_nil_r in G. rewrite G. cbn [guess_value]. injection E' as <- <-. inversion H as [| | |? ? z' Hz Hr Ha Hb| | | | | |]. right.
    rewrite V in Hz. split; [lia|]. f_equal. lia.
Qed.
Lemma dec_of_Z_of_N n : dec_of_Z (Z.of_N n) = dec_of_N n.
Proof. unfold dec_of_Z. destruct (Z.of_N n <? 0)%Z eqn:E; [lia|]. rewrite N2Z.id. reflexivity. Qed.

Lemma guess_string stale s : Forall (fun c => bval c <> 0) s -> ~ means_scalar s -> guess_scalar stale s = GText s.
Proof.
  intros N M. apply C34_other_text_kept.
  - intros I. rewrite Forall_forall in N. apply N in I. apply I. reflexivity.
  - intros a t b f E A B S. apply M. exists a, t, b, f. auto.
Qed.

Lemma scalar_back P v t stale : scalar_text v = Some t -> good_scalar P v ->
  (forall s, v = VStr s -> Forall (fun c => bval c <> 0) s /\ ~ means_scalar s) ->
  carried_scalar v (guess_value (guess_scalar stale t)).
Proof.
  intros T G H. destruct v as [|b|z|n|x|s|l|m|b]; cbn [good_scalar scalar_text] in *; try contradiction; injection T as <-.
  - destruct b, stale; vm_compute; constructor.
  - constructor. apply guess_int. lia.
  - constructor. rewrite <- dec_of_Z_of_N. apply guess_int. lia.
  - destruct G as (d & D & F & ->). rewrite d_of_ld_of_d by exact D. destruct (float_spelled d F) as (sg & ip & fp & ex & S).
    rewrite (guess_float _ _ _ _ _ _ S). rewrite strtod_print by assumption. constructor.
  - destruct (H s eq_refl) as [H1 H2]. rewrite c_str_id by exact H1. rewrite guess_string by assumption. constructor.
Qed.

Lemma scalar_wch P v t : scalar_text v = Some t -> good_scalar P v -> (exists s, v = VStr s /\ t = c_str s) \/ ((forall s, v <> VStr s) /\ forallb wch t = true /\ t <> []).
Proof.
  intros T G. destruct v as [|b|z|n|x|s|l|m|b]; cbn [good_scalar scalar_text] in *; try contradiction; injection T as <-.
  - right. split; [discriminate|]. destruct b; split; [reflexivity|discriminate|reflexivity|discriminate].
  - right. split; [discriminate|]. destruct (int_spelled z) as (sg & ds & E & S & D & N & V). rewrite E. split; [apply fch_wch, nch_fch, int_nch; auto|].
    intros X. apply app_eq_nil in X as [_ X]. auto.
  - right. split; [discriminate|]. rewrite <- dec_of_Z_of_N. destruct (int_spelled (Z.of_N n)) as (sg & ds & E & S & D & N & V). rewrite E. split; [apply fch_wch, nch_fch, int_nch; auto|].
    intros X. apply app_eq_nil in X as [_ X]. auto.
  - right. split; [discriminate|]. destruct G as (d & D & F & ->). rewrite d_of_ld_of_d by exact D. destruct (float_spelled d F) as (sg & ip & fp & ex & S).
    split; [apply fch_wch; eapply float_fch, S|]. eapply spelled_inky, S.
  - left. eauto.
Qed.
Lemma wch_clean t : forallb wch t = true -> clean t /\ forallb (fun c => negb (is_bar c)) t = true.
Proof.
  intros H. rewrite forallb_forall in H. split; [split; [|split]|].
  - apply Forall_forall. intros c I. apply H, wch_spec in I as [_ I]. cbn in *. tauto.
  - intros c u ->. apply (wch_spec c), H. left. reflexivity.
  - intros c u ->. apply (wch_spec c), H. apply in_or_app. right. left. reflexivity.
  - apply forallb_forall. intros c I. apply H, wch_spec in I as [_ I]. apply negb_true_iff, aeqb_neq. intros ->. apply I. cbn. auto 10.
Qed.

(** *** The value of a line *)

Lemma forallb_repeat {A} (f : A -> bool) n x : f x = true -> forallb f (repeat x n) = true.
Proof. intros H. induction n; cbn; [reflexivity|]. rewrite H. exact IHn. Qed.
Lemma span_bars n t : span is_bar (repeat "|"%char n ++ t) = (repeat "|"%char n ++ fst (span is_bar t), snd (span is_bar t)).
Proof. induction n as [|n IH]; cbn [repeat app span]; [destruct (span is_bar t); reflexivity|]. change (is_bar "|") with true. cbv iota. rewrite IH. reflexivity. Qed.
Lemma span_barfree t : forallb (fun c => negb (is_bar c)) t = true -> span is_bar t = ([], t).
Proof. destruct t as [|c t]; [reflexivity|]. cbn. destruct (is_bar c); [discriminate|reflexivity]. Qed.

(** A text with at most a row of bars in front is one scalar. *)
Lemma one_token n t : forallb (fun c => negb (is_bar c)) t = true -> (t = [] -> n = O) ->
  (List.length (tokens (repeat "|"%char n ++ t)) <= 1)%nat /\ bar_at_end (repeat "|"%char n ++ t) = false /\
  strtok_rest (repeat "|"%char n ++ t) = repeat "|"%char n ++ t.
Proof.
  intros T N. unfold tokens, strtok_rest. cbn [tokens_of]. rewrite span_bars, (span_barfree t T). cbn [fst snd].
  split; [|split].
  - destruct t as [|c t]; [cbn; lia|]. rewrite (span_none _ _ T). cbn [List.length]. destruct (List.length (repeat "|"%char n ++ c :: t)); cbn; lia.
  - unfold bar_at_end. destruct t as [|c t]; [rewrite (N eq_refl); reflexivity|].
    rewrite rev_app_distr. destruct (rev (c :: t)) as [|d u] eqn:E; [apply (f_equal (@List.length _)) in E; rewrite rev_length in E; discriminate|].
    cbn. rewrite forallb_forall in T. assert (I : In d (c :: t)) by (apply in_rev; rewrite E; left; reflexivity).
    apply T, negb_true_iff in I. exact I.
  - rewrite app_nil_r, (span_none _ _ T). reflexivity.
Qed.

Lemma entry_one errno n t : Forall (fun c => bval c <> 0) (repeat "|"%char n ++ t) -> forallb (fun c => negb (is_bar c)) t = true -> (t = [] -> n = O) ->
  entry_value errno (repeat "|"%char n ++ t) = (guess_value (guess_scalar (hd false errno) (repeat "|"%char n ++ t)), tl errno).
Proof.
  intros Z T N. unfold entry_value. rewrite (c_str_id _ Z). destruct (one_token n t T N) as (A & B & C).
  rewrite B, C. destruct (Nat.leb_spec (List.length (tokens (repeat "|"%char n ++ t))) 1); [reflexivity|lia].
Qed.

Lemma tokens_bar fuel s : tokens_of fuel ("|"%char :: s) = tokens_of fuel s.
Proof. destruct fuel as [|f]; [reflexivity|]. cbn [tokens_of span]. change (is_bar "|") with true. cbv iota. destruct (span is_bar s). reflexivity. Qed.
Lemma tokens_list : forall ts fuel, Forall (fun t => t <> [] /\ forallb (fun c => negb (is_bar c)) t = true) ts -> (List.length ts < fuel)%nat ->
  tokens_of fuel (flat_map (fun t => t ++ s2b "|") ts) = ts.
Proof.
  induction ts as [|t ts IH]; intros fuel F L; [destruct fuel; reflexivity|]. inversion F as [|? ? [A B] F2]; subst.
  destruct fuel as [|f]; [cbn in L; lia|]. cbn [flat_map tokens_of]. rewrite <- app_assoc.
  assert (E : span is_bar (t ++ s2b "|" ++ flat_map (fun t => t ++ s2b "|") ts) = ([], t ++ s2b "|" ++ flat_map (fun t => t ++ s2b "|") ts)).
  { destruct t as [|c t]; [congruence|]. cbn in B |- *. destruct (is_bar c); [discriminate|reflexivity]. }
  rewrite E. cbn [snd]. change (s2b "|" ++ flat_map (fun t => t ++ s2b "|") ts) with ("|"%char :: flat_map (fun t => t ++ s2b "|") ts).
  rewrite span_stop by (auto; reflexivity). destruct t as [|c t]; [congruence|]. cbn [app]. f_equal. rewrite tokens_bar. apply IH; [exact F2|cbn in L; lia].
Qed.

Lemma guesses_list : forall l ts errno, Forall2 (fun v t => scalar_text v = Some t) l ts -> Forall (good_scalar kept_element) l ->
  Forall2 carried_scalar l (fst (guesses errno ts)).
Proof.
  intros l ts errno F. revert errno. induction F as [|v t l ts H _ IH]; intros errno G; [constructor|]. inversion G; subst.
  rewrite guesses_cons. cbn [fst]. constructor; [|apply IH; assumption]. eapply scalar_back; [exact H|eassumption|].
  intros s ->. match goal with K : good_scalar _ (VStr s) |- _ => destruct K as (_ & K1 & K2) end. split; [|exact K2].
  eapply Forall_impl; [|exact K1]. cbv beta. intros c N E. apply N. rewrite E. cbn. auto.
Qed.

Lemma element_text v t : scalar_text v = Some t -> good_scalar kept_element v ->
  t <> [] /\ Forall (fun c => ~ In (bval c) [0; 10; 35; 124]) t /\ ((forall c s, v = VStr (c :: s) -> ~ blank_text [c]) -> forall c u, t = c :: u -> is_space c = false).
Proof.
  intros T G. destruct (scalar_wch _ _ _ T G) as [(s & -> & ->)|(NS & W & N)].
  - destruct G as (N & F & _). assert (Z : Forall (fun c => bval c <> 0) s).
    { eapply Forall_impl; [|exact F]. cbv beta. intros c K E. apply K. rewrite E. cbn. auto. }
    rewrite c_str_id by exact Z. split; [exact N|]. split; [exact F|]. intros H c u ->. apply nblank1. eapply H. reflexivity.
  - split; [exact N|]. split; [|intros _; apply (wch_clean t W)]. rewrite forallb_forall in W. apply Forall_forall. intros c I. apply W, wch_spec in I as [_ I]. exact I.
Qed.

Lemma Forall_no (P Q : N -> Prop) t : (forall n, P n -> Q n) -> Forall (fun c => P (bval c)) t -> Forall (fun c => Q (bval c)) t.
Proof. intros H. apply Forall_impl. auto. Qed.

Lemma list_clean l ts : Forall2 (fun v t => scalar_text v = Some t) l ts -> Forall (good_scalar kept_element) l ->
  Forall (fun t => t <> [] /\ forallb (fun c => negb (is_bar c)) t = true) ts /\
  Forall (fun c => ~ In (bval c) [0; 10; 35]) (flat_map (fun t => t ++ s2b "|") ts).
Proof.
  induction 1 as [|v t l ts H _ IH]; intros G; [split; constructor|]. inversion G as [|? ? G1 G2]; subst. destruct (IH G2) as [A B].
  destruct (element_text _ _ H G1) as (N & F & _). split.
  - constructor; [|exact A]. split; [exact N|]. apply forallb_forall. intros c I. rewrite Forall_forall in F. apply F in I.
    apply negb_true_iff, aeqb_neq. intros ->. apply I. cbn. auto 10.
  - cbn [flat_map]. apply Forall_app. split; [|exact B]. apply Forall_app. split.
    + eapply Forall_impl; [|exact F]. cbv beta. intros c K. cbn in *. tauto.
    + constructor; [|constructor]. cbn. intuition discriminate.
Qed.

Lemma value_back v t errno : value_text v t -> good v -> clean t /\ carried v (fst (entry_value errno t)).
Proof.
  intros V G. inversion V as [v0 t0 H| |v0 l t0 ts H F]; subst.
  - destruct G as [G|(l & -> & _)]; [|discriminate H].
    destruct (scalar_wch _ _ _ H G) as [(s & -> & E)|(NS & W & N)].
    + destruct G as (K1 & K2 & K3 & (n & u & Es & K4 & K5) & K6).
      assert (Z : Forall (fun c => bval c <> 0) s).
      { eapply Forall_impl; [|exact K1]. cbv beta. intros c K X. apply K. rewrite X. cbn. auto. }
      rewrite c_str_id in E by exact Z. subst t.
      split. { split; [exact K1|]. split; intros c u' X; apply nblank1; [eapply K2|eapply K3]; exact X. }
      subst s. rewrite entry_one; [|exact Z| |exact K5].
      * cbn [fst]. apply ca_scalar. eapply (scalar_back (fun _ => True)); [exact H|exact I|]. intros s [= <-]. auto.
      * apply forallb_forall. intros c I. rewrite Forall_forall in K4. apply K4 in I. apply negb_true_iff, aeqb_neq. intros ->. apply I. reflexivity.
    + destruct (wch_clean t W) as [C B]. split; [exact C|]. change t with (repeat "|"%char 0 ++ t) at 1. rewrite entry_one; [| |exact B|congruence].
      * cbn [fst app repeat]. apply ca_scalar. eapply scalar_back; [exact H|exact G|]. intros s ->. destruct (NS s eq_refl).
      * destruct C as (C & _). eapply Forall_impl; [|exact C]. cbv beta. intros c K X. apply K. rewrite X. cbn. auto.
  - split; [|apply ca_list; constructor]. split; [|split].
    + constructor; [|constructor]. cbn. intuition discriminate.
    + intros c u [= <- <-]. reflexivity.
    + intros c u E. destruct u as [|d u]; [injection E as <-; reflexivity|]. injection E as <- E. destruct u; discriminate.
  - destruct G as [[]|(l0 & [= <-] & G & B)].
    assert (F2 : Forall2 (fun v t => scalar_text v = Some t) (v0 :: l) (t0 :: ts)) by (constructor; auto).
    destruct (list_clean _ _ F2 G) as [C1 C2].
    assert (E : exists w, flat_map (fun t => t ++ s2b "|") (t0 :: ts) = w ++ ["|"%char]).
    { rewrite bars_shift, app_assoc. eauto. }
    split.
    + split; [exact C2|]. split.
      * intros c u X. cbn [flat_map] in X. inversion G as [|? ? G1 G2]; subst.
        destruct (element_text _ _ H G1) as (N & _ & K). destruct t0 as [|d t0]; [congruence|]. cbn [app] in X. injection X as <- _.
        eapply K; [|reflexivity]. intros c s ->. eapply B. reflexivity.
      * intros c u X. destruct E as [w E]. rewrite E in X. apply app_inj_tail in X as [_ <-]. reflexivity.
    + unfold entry_value. rewrite c_str_id.
      * assert (bar_at_end (flat_map (fun t => t ++ s2b "|") (t0 :: ts)) = true) as ->.
        { destruct E as [w ->]. unfold bar_at_end. rewrite rev_unit. reflexivity. }
        cbn [negb]. rewrite andb_false_r. unfold tokens. rewrite tokens_list; [|exact C1|].
        -- destruct (guesses errno (t0 :: ts)) as [l' e] eqn:Q. cbn [fst]. apply ca_list. change l' with (fst (l', e)). rewrite <- Q. apply guesses_list; assumption.
        -- clear - C1. assert (K : forall ts, Forall (fun t => t <> [] /\ forallb (fun c => negb (is_bar c)) t = true) ts ->
             (List.length ts <= List.length (flat_map (fun t => t ++ s2b "|") ts))%nat).
           { clear. induction 1 as [|t ts [N _] _ IH]; [cbn; lia|]. cbn [flat_map List.length]. rewrite !app_length. change (List.length (s2b "|")) with 1%nat. lia. }
           specialize (K _ C1). lia.
      * eapply Forall_impl; [|exact C2]. cbv beta. intros c K X. apply K. rewrite X. cbn. auto.
Qed.

Lemma lines_back : forall m s, map_text m s -> Forall (fun kv => key_ok (fst kv) /\ good (snd kv)) m ->
  exists ls, s = joined ls [] /\ Forall no_nl ls /\
    forall acc errno, msorted (acc ++ m) -> exists m', fst (entries errno ls acc) = acc ++ m' /\
      Forall2 (fun a b => fst a = fst b /\ carried (snd a) (snd b)) m m'.
Proof.
  induction 1 as [|k v t m s V _ IH]; intros F.
  - exists []. split; [reflexivity|]. split; [constructor|]. intros acc errno _. exists []. rewrite app_nil_r. split; [reflexivity|constructor].
  - inversion F as [|? ? [F1 F2] F3]; subst. cbn [fst snd] in *. destruct (IH F3) as (ls & -> & N & K). clear IH.
    exists ((k ++ s2b ": " ++ t) :: ls). destruct (value_back v t [] V F2) as [C _].
    split. { unfold joined. cbn [flat_map]. rewrite key_id by exact F1. rewrite !app_nil_r, <- !app_assoc. reflexivity. }
    split. { constructor; [|exact N]. apply no_nl_app; [apply key_no_nl; exact F1|]. apply no_nl_app; [reflexivity|apply clean_no_nl, C]. }
    intros acc errno S. cbn [entries]. rewrite entry_clean by assumption.
    destruct (value_back v t errno V F2) as [_ Cv]. destruct (entry_value errno t) as [x e] eqn:E. cbn [fst] in Cv.
    assert (L : mset k x acc = acc ++ [(k, x)]).
    { apply mset_last. intros k' I. clear - S I. induction acc as [|[a b] acc IHa]; [destruct I|].
      cbn [app] in S. destruct S as [S1 S2]. destruct I as [<-|I]; [|apply IHa; assumption].
      apply S1. unfold mkeys. rewrite map_app. apply in_or_app. right. left. reflexivity. }
    rewrite L. assert (S' : msorted ((acc ++ [(k, x)]) ++ m)).
    { rewrite <- app_assoc. cbn [app]. clear - S. induction acc as [|[a b] acc IHa]; cbn [app] in *.
      - destruct S as [S1 S2]. split; assumption.
      - destruct S as [S1 S2]. split; [|apply IHa; exact S2]. intros k' I. apply S1. unfold mkeys in *. rewrite map_app in *. exact I. }
    destruct (K _ e S') as (m' & E' & F').
    exists ((k, x) :: m'). rewrite E', <- app_assoc. split; [reflexivity|]. constructor; auto.
Qed.

Lemma joined_app a b t : joined (a ++ b) t = flat_map (fun l => l ++ nl) a ++ joined b t.
Proof. unfold joined. rewrite flat_map_app, app_assoc. reflexivity. Qed.
Lemma lines_short ls t n : llen (joined ls t) <= n -> Forall (fun l => llen l <= n) ls /\ llen t <= n.
Proof.
  unfold joined. rewrite llen_app. intros H. split; [|lia].
  assert (H' : llen (flat_map (fun l => l ++ nl) ls) <= n) by lia. clear H.
  induction ls as [|l ls IH]; [constructor|]. cbn [flat_map] in H'. rewrite !llen_app in H'. constructor; [lia|apply IH; lia].
Qed.

Lemma text_exists m : is_flat (VMap m) <-> exists s, map_text m s.
Proof.
  split.
  - intros (m0 & [= <-] & F). induction F as [|[k v] m H _ (s & IH)]; [exists []; constructor|]. cbn [snd] in H.
    assert (V : exists t, value_text v t).
    { destruct H as [H|(l & -> & H)]; [apply scalar_has_text in H as [t H]; exists t; constructor; exact H|].
      assert (K : exists ts, Forall2 (fun v t => scalar_text v = Some t) l ts).
      { induction H as [|v l H _ (ts & IH')]; [exists []; constructor|]. apply scalar_has_text in H as [t H]. exists (t :: ts). constructor; auto. }
      destruct K as [ts K]. inversion K; subst; [eexists; apply vt_nil|eexists; apply vt_list; eassumption]. }
    destruct V as [t V]. eexists. apply mt_cons; eassumption.
  - intros (s & M). exists m. split; [reflexivity|]. induction M as [|k v t m s V _ IH]; constructor; [|exact IH]. cbn [snd].
    inversion V as [v0 t0 H| |v0 l t0 ts H F]; subst.
    + left. apply scalar_has_text. eauto.
    + right. eauto.
    + right. exists (v0 :: l). split; [reflexivity|]. constructor; [apply scalar_has_text; eauto|]. clear - F. induction F; constructor; [apply scalar_has_text; eauto|exact IHF].
Qed.

(** ** Theorem: what was written comes back, however the output took it and however the input
    delivers it.  (Every flat map has a text, see text_exists.) *)
Theorem C37_roundtrip_partial : forall m s,
  msorted m -> Forall (fun kv => key_ok (fst kv) /\ good (snd kv)) m -> map_text m s -> llen s < 2^31 - 5000 ->
  (forall sched fuel, (List.length sched + List.length s + 100 < fuel)%nat ->
    bundle_document fuel sched (VMap m) = Ok (heading ++ s, None)) /\
  (forall i fuel errno, ready i -> unread i = heading ++ s -> (2 * List.length s + 100 < fuel)%nat ->
    exists m', outcome (parse_bundle fuel errno i) = Ok (VMap m') /\
      Forall2 (fun a b => fst a = fst b /\ carried (snd a) (snd b)) m m').
Proof.
  intros m s S F M L. split; [intros; apply C37_written; auto; lia|]. intros i fuel errno R U Hf.
  destruct (lines_back m s M F) as (ls & E & N & K). destruct (K [] errno S) as (m' & E' & F').
  set (ls' := s2b "bundle.version: 0.0" :: ls).
  assert (J : heading ++ s = joined ls' []).
  { unfold ls', joined, heading. cbn [flat_map]. rewrite E. unfold joined. rewrite !app_nil_r, <- !app_assoc. reflexivity. }
  assert (Len : (List.length (heading ++ s) = 20 + List.length s)%nat) by reflexivity.
  destruct (bundle_read pinput in_view_len in_release ready unread pinput_next_len ls' [] i fuel errno) as (d & i1 & P & _); auto.
  - reflexivity.
  - unfold short. cbn. lia.
  - constructor; [reflexivity|exact N].
  - assert (B : llen (joined ls' []) <= 2^31 - 4500) by (rewrite <- J; unfold llen; rewrite Len; unfold llen in L; lia).
    apply lines_short in B as [B _]. eapply Forall_impl; [|exact B]. cbv beta. unfold short. intros; lia.
  - congruence.
  - rewrite <- J. discriminate.
  - rewrite <- J, Len. lia.
  - exists m'. split; [|exact F']. unfold parse_bundle. rewrite P. cbn [outcome rbind].
    assert (X : entries errno ls' [] = entries errno ls []) by reflexivity. rewrite X, E'. reflexivity.
Qed.
Print Assumptions C37_roundtrip_partial.

(** ** Reading does not depend on how the bytes arrive. *)
Theorem C37_chunk_independent : forall i j fuel errno text, ready i -> ready j -> unread i = text -> unread j = text ->
  llen text < 2^31 - 5000 -> (2 * List.length text + 100 < fuel)%nat ->
  outcome (parse_bundle fuel errno i) = outcome (parse_bundle fuel errno j) /\
  (text <> [] -> exists m, outcome (parse_bundle fuel errno i) = Ok (VMap m)).
Proof.
  intros i j fuel errno text Ri Rj Ui Uj L Hf. destruct text as [|c0 t0].
  - split; [|congruence].
    assert (K : forall i, ready i -> unread i = [] -> outcome (parse_bundle fuel errno i) = Ok VNull).
    { clear - Hf. intros i R U. unfold parse_bundle, bh_parse. destruct fuel as [|f]; [lia|]. cbn [bh_loop bh_run]. cbn [bh_new h_b b_new b_acts h_st].
      destruct (pinput_next_len i 0 R ltac:(lia)) as (v & i1 & G & H). rewrite G. cbn [rbind]. destruct v as [[|c b]|].
      - cbn. reflexivity.
      - destruct H as (rest & E & _). rewrite U in E. discriminate.
      - cbn. reflexivity. }
    rewrite (K i Ri Ui), (K j Rj Uj). reflexivity.
  - remember (c0 :: t0) as text eqn:Et. assert (Ne : text <> []) by (rewrite Et; discriminate). clear Et c0 t0.
    destruct (lines_exist text) as (ls & tail & E & N1 & N2).
    assert (B : Forall short ls /\ short tail).
    { assert (B : llen (joined ls tail) <= 2^31 - 5000) by (rewrite <- E; lia). apply lines_short in B as [B1 B2].
      split; [eapply Forall_impl; [|exact B1]; cbv beta|]; unfold short; intros; lia. }
    destruct B as [B1 B2].
    assert (K : forall i, ready i -> unread i = text -> outcome (parse_bundle fuel errno i) = Ok (VMap (fst (entries errno ls [])))).
    { intros i0 R U. destruct (bundle_read pinput in_view_len in_release ready unread pinput_next_len ls tail i0 fuel errno) as (d & i1 & P & _); auto.
      - congruence.
      - congruence.
      - rewrite <- E. lia.
      - unfold parse_bundle. rewrite P. reflexivity. }
    rewrite (K i Ri Ui), (K j Rj Uj). split; [reflexivity|eauto].
Qed.
Print Assumptions C37_chunk_independent.

(** ** Exactly which strings come back *)

Lemma guess_text_len stale s x : guess_value (guess_scalar stale s) = VStr x -> x = s.
Proof.
  unfold guess_scalar. repeat (destruct (rmatch _ _); [try discriminate|]); cbn; try congruence.
  destruct (strtoll10 _). destruct (_ && _)%bool; discriminate.
Qed.
Lemma spelled_not_text stale s : means_scalar s -> forall x, guess_value (guess_scalar stale s) <> VStr x.
Proof.
  intros (a & t & b & f & -> & A & B & S) x. apply blank_b in A, B. destruct (spelled_inky _ _ S) as [NE INK].
  destruct (trim_text a t b A B NE INK) as (T1 & T2 & T3). unfold guess_scalar. rewrite T1, T2, T3.
  destruct (rmatch re_null t) eqn:Q1; [discriminate|]. destruct (rmatch re_true t) eqn:Q2; [discriminate|]. destruct (rmatch re_false t) eqn:Q3; [discriminate|].
  destruct (rmatch re_int10 t) eqn:Q4; [destruct (strtoll10 _); destruct (_ && _)%bool; discriminate|].
  destruct (rmatch re_int8 t) eqn:Q5; [discriminate|]. destruct (rmatch re_int16 t) eqn:Q6; [discriminate|].
  destruct (rmatch re_float t) eqn:Q7; [discriminate|]. destruct (rmatch re_inf t) eqn:Q8; [discriminate|]. destruct (rmatch re_nan t) eqn:Q9; [discriminate|].
  exfalso. destruct f as [| | |sg ds|v|v|sg ip fp ex|neg|].
  - apply spell_null in S. congruence.
  - apply spell_true in S. congruence.
  - apply spell_false in S. congruence.
  - assert (rmatch re_int10 t = true) by (apply spell_int; inversion S; eauto 8). congruence.
  - assert (rmatch re_int8 t = true) by (apply spell_oct; inversion S; eauto). congruence.
  - assert (rmatch re_int16 t = true) by (apply spell_hex; inversion S; eauto). congruence.
  - assert (rmatch re_float t = true) by (apply spell_float; left; eauto). congruence.
  - assert (rmatch re_inf t = true) by (apply spell_inf; eauto). congruence.
  - apply spell_nan in S. congruence.
Qed.

Lemma strtok_rest_len s : (List.length (strtok_rest s) <= List.length s)%nat.
Proof.
  unfold strtok_rest. pose proof (length_span is_bar s). destruct (span is_bar s) as [a r]. cbn [fst snd] in *.
  pose proof (length_span (fun c => negb (is_bar c)) r). rewrite app_length. lia.
Qed.
Lemma entry_value_len errno v x : fst (entry_value errno v) = VStr x -> x = strtok_rest (c_str v) /\ bar_at_end v = false /\ (List.length (tokens (c_str v)) <= 1)%nat
  /\ exists stale, guess_value (guess_scalar stale x) = VStr x.
Proof.
  unfold entry_value. destruct (_ && _)%bool eqn:Q.
  - apply andb_true_iff in Q as [Q1 Q2]. cbn [fst]. intros H. pose proof (guess_text_len _ _ _ H) as ->. apply Nat.leb_le in Q1. apply negb_true_iff in Q2.
    split; [reflexivity|]. split; [exact Q2|]. split; [exact Q1|]. eexists. exact H.
  - destruct (guesses _ _). discriminate.
Qed.
(** Every string among the entries is shorter than the line it came from. *)
Lemma entries_len n : forall ls errno m, Forall (fun l => forall k v, entry l = Some (k, v) -> (List.length v < n)%nat) ls ->
  (forall k x, mget k m = Some (VStr x) -> (List.length x < n)%nat) -> msorted m ->
  forall k x, mget k (fst (entries errno ls m)) = Some (VStr x) -> (List.length x < n)%nat.
Proof.
  induction ls as [|l ls IH]; intros errno m F H S k x; cbn [entries]; [apply H|]. inversion F as [|? ? F1 F2]; subst.
  destruct (entry l) as [[k0 v]|] eqn:E; [|apply IH; assumption]. destruct (entry_value errno v) as [y e] eqn:Ev.
  apply IH; [exact F2| |apply msorted_mset, S]. intros k1 x1. rewrite mget_mset by exact S. destruct (beqb k1 k0); [|apply H].
  intros [= ->]. destruct (entry_value_len errno v x1) as (-> & _); [rewrite Ev; reflexivity|].
  pose proof (strtok_rest_len (c_str v)). pose proof (c_str_len v). specialize (F1 k0 v eq_refl). lia.
Qed.

Lemma span_all_len (f : ascii -> bool) s : (List.length s <= List.length (fst (span f s)))%nat -> forallb f s = true.
Proof.
  induction s as [|c s IH]; cbn; [reflexivity|]. destruct (f c); [|cbn; lia]. destruct (span f s). cbn in *. intros. apply IH. lia.
Qed.
Lemma skip_space_full s : (List.length s <= List.length (skip_space s))%nat -> skip_space s = s /\ forall c t, s = c :: t -> is_space c = false.
Proof.
  unfold skip_space. destruct s as [|c s]; [intros; split; [reflexivity|discriminate]|]. cbn. destruct (is_space c) eqn:E.
  - pose proof (length_span is_space s). destruct (span is_space s). cbn in *. lia.
  - intros _. split; [reflexivity|]. intros d t [= <- _]. exact E.
Qed.
Lemma drop_trailing_full s : (List.length s <= List.length (drop_trailing s))%nat -> drop_trailing s = s /\ forall c t, s = t ++ [c] -> is_space c = false.
Proof.
  unfold drop_trailing. intros H. rewrite rev_length in H. destruct (skip_space_full (rev s)) as [E K]; [rewrite rev_length; exact H|].
  rewrite E, rev_involutive. split; [reflexivity|]. intros c t ->. apply (K c (rev t)). apply rev_unit.
Qed.
Lemma c_str_full s : (List.length s <= List.length (c_str s))%nat -> Forall (fun c => bval c <> 0) s.
Proof.
  induction s as [|c s IH]; [constructor|]. cbn [c_str]. destruct (aeqb c (bchr 0)) eqn:E; cbn [List.length]; [lia|]. intros H. constructor; [|apply IH; lia].
  apply aeqb_neq in E. intros X. apply E. rewrite <- (bchr_bval c), X. reflexivity.
Qed.
Lemma strtok_full s : strtok_rest s = s -> bar_at_end s = false ->
  exists n t, s = repeat "|"%char n ++ t /\ Forall (fun c => bval c <> 124) t /\ (t = [] -> n = O).
Proof.
  intros E B. assert (P : exists n, fst (span is_bar s) = repeat "|"%char n /\ s = repeat "|"%char n ++ snd (span is_bar s)).
  { clear. induction s as [|c s (n & IH1 & IH2)]; [exists O; auto|]. cbn [span]. destruct (is_bar c) eqn:Q; [|exists O; auto].
    apply aeqb_eq in Q as ->. destruct (span is_bar s) as [a r]. cbn [fst snd] in *. exists (S n). subst a s. auto. }
  destruct P as (n & P1 & P2). unfold strtok_rest in E. destruct (span is_bar s) as [a r] eqn:Q. cbn [fst snd] in *. subst a.
  exists n, r. split; [exact P2|]. rewrite P2 in E. apply app_inv_head in E.
  assert (F : forallb (fun c => negb (is_bar c)) r = true) by (apply span_all_len; rewrite E; lia). split.
  - apply Forall_forall. intros c I X. rewrite forallb_forall in F. apply F in I. rewrite <- (bchr_bval c), X in I. discriminate.
  - intros ->. destruct n as [|n]; [reflexivity|]. exfalso. rewrite app_nil_r in P2. subst s. unfold bar_at_end in B.
    assert (R : forall n, rev (repeat "|"%char n) = repeat "|"%char n).
    { clear. induction n as [|n IH]; [reflexivity|]. cbn [repeat rev]. rewrite IH. symmetry. apply repeat_cons. }
    rewrite R in B. discriminate.
Qed.

Lemma c_str_cut a r : (List.length (c_str (a ++ bchr 0 :: r)) <= List.length a)%nat.
Proof. induction a as [|c a IH]; [reflexivity|]. cbn [app c_str]. destruct (aeqb c (bchr 0)); cbn [List.length]; lia. Qed.

(** The lines of a one-entry document: either the text has no newline, or every line's value is
    shorter than the text. *)
Lemma one_entry_lines k t : key_ok k -> exists ls, k ++ s2b ": " ++ t ++ [bchr 10] = joined ls [] /\ Forall no_nl ls /\
  ((ls = [k ++ s2b ": " ++ t] /\ no_nl t) \/
   Forall (fun l => forall k v, entry l = Some (k, v) -> (List.length v < List.length t)%nat) ls).
Proof.
  intros K. destruct (lines_exist t) as (l2 & tail & E & N1 & N2). destruct l2 as [|a l3].
  - cbn in E. subst tail. exists [k ++ s2b ": " ++ t]. unfold joined. cbn [flat_map]. rewrite !app_nil_r, <- !app_assoc.
    split; [reflexivity|]. split; [constructor; [|constructor]|left; auto].
    apply no_nl_app; [apply key_no_nl; exact K|]. apply no_nl_app; [reflexivity|exact N2].
  - inversion N1 as [|? ? Na Nl]; subst l x. exists ((k ++ s2b ": " ++ a) :: l3 ++ [tail]). split; [|split].
    + subst t. unfold joined. cbn [flat_map]. rewrite flat_map_app. cbn [flat_map]. rewrite !app_nil_r, <- !app_assoc. reflexivity.
    + constructor; [apply no_nl_app; [apply key_no_nl; exact K|]; apply no_nl_app; [reflexivity|exact Na]|]. apply Forall_app. split; [exact Nl|constructor; [exact N2|constructor]].
    + right. assert (Lt : (List.length t = List.length a + 1 + List.length (flat_map (fun l => l ++ nl) l3) + List.length tail)%nat).
      { subst t. unfold joined. cbn [flat_map]. rewrite !app_length. cbn [List.length nl]. lia. }
      constructor.
      * intros k0 v. unfold entry. rewrite scan_line_kv by exact K. rewrite key_beqb by exact K. intros [= _ <-]. rewrite trim_len.
        pose proof (length_span (fun c => negb (aeqb c "#")) (skip_space a)). pose proof (skip_len a). lia.
      * apply Forall_app. split.
        -- apply Forall_forall. intros l I k0 v H. apply entry_len in H.
           assert (Q : (List.length l <= List.length (flat_map (fun l => l ++ nl) l3))%nat); [|lia].
           clear - I. induction l3 as [|x l3 IH]; [destruct I|]. cbn [flat_map]. rewrite !app_length. destruct I as [->|I]; [lia|]. specialize (IH I). lia.
        -- constructor; [|constructor]. intros k0 v H. apply entry_len in H. lia.
Qed.

(** A string comes back as the value of a key exactly when it is a kept_string. *)
Theorem C37_string_exact : forall k s i fuel errno, key_ok k -> ready i -> unread i = heading ++ c_str k ++ s2b ": " ++ c_str s ++ [bchr 10] ->
  llen k + llen s < 2^31 - 6000 -> (4 * List.length k + 4 * List.length s + 200 < fuel)%nat ->
  (outcome (parse_bundle fuel errno i) = Ok (VMap [(k, VStr s)]) <-> kept_string s).
Proof.
  intros k s i fuel errno K R U L Hf. pose proof (key_id k K) as Ek. split.
  2: { intros G. assert (M : map_text [(k, VStr s)] (c_str k ++ s2b ": " ++ c_str s ++ bchr 10 :: [])) by (apply mt_cons; constructor; reflexivity).
       assert (Ls : (List.length (c_str s) <= List.length s)%nat) by apply c_str_len.
       destruct (C37_roundtrip_partial [(k, VStr s)] (c_str k ++ s2b ": " ++ c_str s ++ bchr 10 :: [])) as [_ P].
       - split; [intros ? []|exact I].
       - constructor; [|constructor]. split; [exact K|]. left. exact G.
       - exact M.
       - rewrite !llen_app. rewrite Ek. change (llen (s2b ": ")) with 2. unfold llen in *. cbn [List.length]. lia.
       - destruct (P i fuel errno R U) as (m' & O & F).
         + rewrite !app_length, Ek. cbn [List.length s2b list_ascii_of_string]. lia.
         + rewrite O. inversion F as [|a b l l' [F1 F2] F3]; subst. inversion F3; subst. destruct b as [k' v']. cbn [fst snd] in *. subst k'.
           inversion F2 as [? ? F4|]; subst. inversion F4; subst. reflexivity. }
  intros O. set (t := c_str s) in *. destruct (one_entry_lines k t K) as (ls & E & N1 & Cases).
  set (ls' := s2b "bundle.version: 0.0" :: ls).
  assert (Ls : (List.length t <= List.length s)%nat) by apply c_str_len.
  assert (J : heading ++ c_str k ++ s2b ": " ++ t ++ [bchr 10] = joined ls' []).
  { rewrite Ek, E. unfold ls', joined, heading. cbn [flat_map]. rewrite <- !app_assoc. reflexivity. }
  assert (Len : (List.length (joined ls' []) = 23 + List.length k + List.length t)%nat).
  { rewrite <- J, Ek. rewrite !app_length. cbn [List.length s2b list_ascii_of_string]. change (List.length heading) with 20%nat. lia. }
  assert (B1 : Forall short ls').
  { assert (B : llen (joined ls' []) <= 2^31 - 4900) by (unfold llen in *; rewrite Len; lia). apply lines_short in B as [B1 B2].
    eapply Forall_impl; [|exact B1]; cbv beta; unfold short; intros; lia. }
  destruct (bundle_read pinput in_view_len in_release ready unread pinput_next_len ls' [] i fuel errno) as (d & i1 & P & _); auto.
  { reflexivity. }
  { unfold short. cbn. lia. }
  { constructor; [reflexivity|exact N1]. }
  { congruence. }
  { intros X. rewrite X in Len. discriminate. }
  { rewrite Len. lia. }
  unfold parse_bundle in O. rewrite P in O. cbn [outcome rbind] in O. injection O as O.
  change (entries errno ls' []) with (entries errno ls []) in O. clear P J Len B1.
  assert (G : mget k (fst (entries errno ls [])) = Some (VStr s)) by (rewrite O; cbn; rewrite (proj2 (beqb_eq k k) eq_refl); reflexivity).
  assert (V : forall n, (forall a v, entry (k ++ s2b ": " ++ t) = Some (a, v) -> (List.length v < n)%nat) -> ls = [k ++ s2b ": " ++ t] -> (List.length s < n)%nat).
  { intros n H ->. eapply (entries_len n); [| | |exact G]; [constructor; [exact H|constructor]|discriminate|exact I]. }
  destruct Cases as [[Els Nt]|Short].
  2: { exfalso. assert ((List.length s < List.length t)%nat); [|lia]. eapply entries_len; [exact Short| | |exact G]; [discriminate|exact I]. }
  assert (Full : (List.length s <= List.length t)%nat).
  { apply Nat.lt_succ_r. apply V; [|exact Els]. intros a v. unfold entry. rewrite scan_line_kv by exact K. rewrite key_beqb by exact K. intros [= _ <-]. rewrite trim_len.
    pose proof (length_span (fun c => negb (aeqb c "#")) (skip_space t)). pose proof (skip_len t). lia. }
  pose proof (c_str_full s Full) as Z. assert (Et : t = s) by (apply c_str_id, Z). clearbody t. subst t. clear Full Ls V.
  rewrite Els in G. cbn [entries] in G. unfold entry in G. rewrite scan_line_kv, key_beqb, Ek in G by exact K.
  set (v := fst (span (fun c => negb (aeqb c "#")) (skip_space s))) in G.
  destruct (entry_value errno (trim_value v)) as [y e] eqn:Ev. cbn [fst entries mset mget] in G. rewrite (proj2 (beqb_eq k k) eq_refl) in G. injection G as ->.
  destruct (entry_value_len errno (trim_value v) s) as (S1 & S2 & _ & st & S3); [rewrite Ev; reflexivity|].
  assert (L1 : (List.length s <= List.length (c_str (trim_value v)))%nat) by (rewrite S1 at 1; apply strtok_rest_len).
  pose proof (c_str_len (trim_value v)) as L2. rewrite trim_len in L2.
  pose proof (length_span (fun c => negb (aeqb c "#")) (skip_space s)) as L3. fold v in L3. pose proof (skip_len s) as L4.
  destruct (skip_space_full s ltac:(lia)) as [H1 H2].
  assert (H3 : forallb (fun c => negb (aeqb c "#")) s = true) by (apply span_all_len; replace (fst (span (fun c => negb (aeqb c "#")) s)) with v by (unfold v; rewrite H1; reflexivity); lia).
  assert (Hv : v = s) by (unfold v; rewrite H1, (span_none _ _ H3); reflexivity). clearbody v. subst v.
  assert (H4 : (List.length s <= List.length (drop_trailing s))%nat).
  { destruct (Nat.le_gt_cases (List.length s) (List.length (drop_trailing s))) as [|Lt]; [assumption|exfalso].
    unfold trim_value in L1. rewrite (c_str_id s Z) in L1.
    destruct (List.length s - List.length (drop_trailing s))%nat as [|n] eqn:D; [lia|]. cbn [repeat app] in L1.
    pose proof (c_str_cut (drop_trailing s) (repeat (bchr 0) n ++ skipn (List.length s) s)). lia. }
  destruct (drop_trailing_full s H4) as [_ H5].
  rewrite (trim_id s Z H5) in *. rewrite (c_str_id s Z) in S1.
  split; [|split; [|split; [|split]]].
  - apply Forall_forall. intros c I X. cbn [In] in X. unfold no_nl in Nt. rewrite forallb_forall in Nt, H3. rewrite Forall_forall in Z.
    pose proof (bchr_bval c) as Q. destruct X as [X|[X|[X|[]]]].
    + apply (Z c I). auto.
    + specialize (Nt c I). rewrite <- Q, <- X in Nt. discriminate.
    + specialize (H3 c I). rewrite <- Q, <- X in H3. discriminate.
  - intros c u X. apply nblank1. eapply H2. exact X.
  - intros c u X. apply nblank1. eapply H5. exact X.
  - apply strtok_full; auto.
  - intros M. exact (spelled_not_text st s M s S3).
Qed.
Print Assumptions C37_string_exact.

(** ** Cases that meet the hypotheses, and cases outside them *)

(** Write to an output that takes 3 bytes, then 0, then everything, and read from memory. *)
Definition there_and_back (v : value) : res value :=
  do (doc, x) <- bundle_document 400 [3; 0] v;
  match x with
  | Some e => Throw e
  | None => outcome (parse_bundle 900 [] (InMem (MInput doc 0)))
  end.

Definition three_halves : spec_float := S754_finite true 6755399441055744 (-52).
Definition demo : list (bytes * value) :=
  [(s2b "a", VBool true); (s2b "b", VList [VInt (-3); VStr (s2b " x"); VUns 18446744073709551615]); (s2b "c.d", VFlt (ld_of_d three_halves));
   (s2b "e", VStr (s2b "|two words")); (s2b "f", VList []); (s2b "g", VStr []); (s2b "h", VUns 7)].
Example demo_back : there_and_back (VMap demo) = Ok (VMap
  [(s2b "a", VInt 1); (s2b "b", VList [VInt (-3); VStr (s2b " x"); VUns 18446744073709551615]); (s2b "c.d", VFlt (ld_of_d three_halves));
   (s2b "e", VStr (s2b "|two words")); (s2b "f", VList []); (s2b "g", VStr []); (s2b "h", VInt 7)]).
Proof. vm_compute. reflexivity. Qed.

Lemma not_scalar s : guess_scalar false s = GText s -> ~ means_scalar s.
Proof. intros H M. apply (spelled_not_text false s M s). rewrite H. reflexivity. Qed.
Lemma no_chars (bad : list N) s : forallb (fun c => negb (existsb (N.eqb (bval c)) bad)) s = true -> Forall (fun c => ~ In (bval c) bad) s.
Proof.
  rewrite forallb_forall, Forall_forall. intros H c I J. apply H, negb_true_iff in I.
  assert (E : existsb (N.eqb (bval c)) bad = true) by (apply existsb_exists; exists (bval c); split; [exact J|apply N.eqb_refl]). congruence.
Qed.
Example demo_good : msorted demo /\ Forall (fun kv => key_ok (fst kv) /\ good (snd kv)) demo /\ exists s, map_text demo s.
Proof.
  split; [|split].
  - cbn. repeat (split; [intros ? I; cbn in I; repeat (destruct I as [<-|I]; [reflexivity|]); destruct I|]). exact I.
  - assert (K : forall k, forallb (fun c => negb (existsb (N.eqb (bval c)) [0; 9; 10; 32; 35; 58])) k = true -> beqb k (s2b "bundle.version") = false ->
        match k with c :: _ => is_space c = false | [] => True end -> key_ok k).
    { intros k A B C. split; [apply no_chars, A|]. split; [intros E; apply beqb_eq in E; congruence|]. intros c t ->. apply nblank1, C. }
    unfold demo. repeat apply Forall_cons; try apply Forall_nil; (split; [apply K; vm_compute; auto|cbn [snd]]).
    + left. exact I.
    + right. eexists. split; [reflexivity|]. split; [|discriminate]. apply Forall_cons; [cbn; lia|]. apply Forall_cons; [split; [discriminate|split]|apply Forall_cons; [cbn; lia|constructor]].
      * apply no_chars. reflexivity.
      * apply not_scalar. vm_compute. reflexivity.
    + left. exists three_halves. repeat split.
    + left. split; [apply no_chars; reflexivity|]. split; [intros c t [= <- _]; apply nblank1; reflexivity|]. split; [|split].
      * intros c t E. apply nblank1. apply (f_equal (@rev _)) in E. rewrite rev_unit in E. cbn in E. injection E as <- _. reflexivity.
      * exists 1%nat, (s2b "two words"). split; [reflexivity|]. split; [|discriminate]. repeat constructor; discriminate.
      * apply not_scalar. vm_compute. reflexivity.
    + right. exists []. repeat split; [constructor|discriminate].
    + left. split; [constructor|]. split; [discriminate|]. split; [intros c [|] E; discriminate|]. split; [exists O, []; repeat split; constructor|].
      apply not_scalar. vm_compute. reflexivity.
    + left. cbn. lia.
  - apply text_exists. exists demo. split; [reflexivity|]. unfold demo. repeat apply Forall_cons; try apply Forall_nil; cbn [snd].
    + left. exact I.
    + right. eexists. split; [reflexivity|]. repeat constructor.
    + left. exact I.
    + left. exact I.
    + right. eexists. split; [reflexivity|]. constructor.
    + left. exact I.
    + left. exact I.
Qed.

(** Null comes back as an empty string; infinities and NaN as strings. *)
Theorem C37_scalars_refuted : exists k v w, there_and_back (VMap [(k, v)]) = Ok (VMap [(k, w)]) /\ is_scalar v /\ v <> w /\ v = VNull /\ w = VStr [].
Proof. exists (s2b "k"), VNull, (VStr []). vm_compute. repeat split; discriminate. Qed.
Print Assumptions C37_scalars_refuted.
Theorem C37_infinity_refuted :
  there_and_back (VMap [(s2b "k", VFlt (S754_infinity true))]) = Ok (VMap [(s2b "k", VStr (s2b "-inf"))]) /\
  there_and_back (VMap [(s2b "k", VFlt S754_nan)]) = Ok (VMap [(s2b "k", VStr (s2b "nan"))]).
Proof. vm_compute. auto. Qed.
Print Assumptions C37_infinity_refuted.

(** Strings that look like another scalar change type; bars make lists; comments, blanks at
    the ends, newlines and NUL bytes are lost. *)
Theorem C37_strings_refuted :
  let back s := there_and_back (VMap [(s2b "k", VStr s)]) in
  let got w := Ok (VMap [(s2b "k", w)]) in
  back (s2b "12") = got (VInt 12) /\ back (s2b "True") = got (VBool true) /\ back (s2b "~") = got VNull /\
  back (s2b "a|b") = got (VList [VStr (s2b "a"); VStr (s2b "b")]) /\ back (s2b "a|") = got (VList [VStr (s2b "a")]) /\
  back (s2b "a#b") = got (VStr (s2b "a")) /\ back (s2b " a ") = got (VStr (s2b "a")) /\
  back (s2b "a" ++ bchr 10 :: s2b "k:b") = got (VStr (s2b "b")) /\ back (s2b "a" ++ bchr 0 :: s2b "b") = got (VStr (s2b "a")).
Proof. vm_compute. repeat split. Qed.
Print Assumptions C37_strings_refuted.

(** Empty elements are lost from lists, and a list of one null is written as an empty list. *)
Theorem C37_lists_refuted :
  there_and_back (VMap [(s2b "k", VList [VStr (s2b "a"); VStr []; VStr (s2b "b")])]) = Ok (VMap [(s2b "k", VList [VStr (s2b "a"); VStr (s2b "b")])]) /\
  there_and_back (VMap [(s2b "k", VList [VNull])]) = Ok (VMap [(s2b "k", VList [])]).
Proof. vm_compute. auto. Qed.
Print Assumptions C37_lists_refuted.

(** Keys with a colon, a blank or a comment sign are cut or dropped; "bundle.version" is dropped. *)
Theorem C37_keys_refuted :
  let back k := there_and_back (VMap [(k, VStr (s2b "x"))]) in
  back (s2b "a:b") = Ok (VMap [(s2b "a", VStr (s2b "b: x"))]) /\ back (s2b "a b") = Ok (VMap []) /\
  back (s2b "a#b") = Ok (VMap []) /\ back (s2b "bundle.version") = Ok (VMap []).
Proof. vm_compute. repeat split. Qed.
Print Assumptions C37_keys_refuted.

(** A last line without its newline is ignored. *)
Theorem C37_last_line_refuted :
  outcome (parse_bundle 900 [] (InMem (MInput (s2b "a: 1" ++ nl ++ s2b "b: 2") 0))) = Ok (VMap [(s2b "a", VInt 1)]).
Proof. vm_compute. reflexivity. Qed.
Print Assumptions C37_last_line_refuted.

(** A nested map is refused only after part of the document was written. *)
Theorem C37_partial_output_refuted :
  bundle_document 400 [] (VMap [(s2b "a", VInt 1); (s2b "b", VMap [])]) = Ok (heading ++ s2b "a: 1" ++ nl ++ s2b "b: ", Some RuntimeError).
Proof. vm_compute. reflexivity. Qed.
Print Assumptions C37_partial_output_refuted.
