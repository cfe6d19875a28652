(** The JSON driver on a flat byte sequence, and the proof that the driver of
    JSONDriver.v on any well-behaved input does exactly that.  Proof device only. *)
From Verif Require Import Base CNum Float Value Convert Builder Base64 ParserInput ParserInputProofs JSONParserC JSONCore JSONDriver.
Open Scope N_scope.

(** JSONDriver.jd with a parser without capacities (src/JSONParser.h:42-107). *)
Record kd := Kd { kd_p : core; kd_st : jstatus; kd_depth : Z; kd_b : bstate }.

(** The callbacks of JSONDriver.callback (src/JSONParser.cc:25-94) do not look at the parser. *)
Record cb := Cb { cb_st : jstatus; cb_depth : Z; cb_b : bstate }.

Definition kcall (d : cb) (e : jev) : res cb :=
  let st := match cb_st d with S_BEGIN => S_OK | s => s end in
  let call k e := do b <- build (cb_b d) e; Ok (Cb st (cb_depth d + k) b) in
  match e with
  | JArrayBegin => call 1%Z BBeginList
  | JArrayEnd => call (-1)%Z BEndList
  | JObjectBegin => call 1%Z BBeginMap
  | JObjectEnd => call (-1)%Z BEndMap
  | JInteger z => call 0%Z (BScalar (VInt z))
  | JUnsigned n => call 0%Z (BScalar (VUns n))
  | JFloat x => call 0%Z (BScalar (VFlt (ld_of_d x)))
  | JNull => call 0%Z (BScalar VNull)
  | JTrue => call 0%Z (BScalar (VBool true))
  | JFalse => call 0%Z (BScalar (VBool false))
  | JKey s => call 0%Z (BScalar (VStr s))
  | JString s => do v <- str_value s; call 0%Z (BScalar v)
  end.
Fixpoint kcalls (d : cb) (es : list jev) : res cb :=
  match es with [] => Ok d | e :: es' => do d1 <- kcall d e; kcalls d1 es' end.

(** JSONDriver.live, settle, jd_char (src/JSONParser.cc:135, 140-141, 151-158). *)
Definition klive (d : kd) : bool :=
  match kd_st d with
  | S_OK | S_BEGIN => match b_acts (kd_b d) with [] => false | _ => true end
  | _ => false
  end.
Definition ksettle (d : kd) : kd :=
  let '(ok, p) := kjdone (kd_p d) in Kd p (if ok then S_END else S_ERROR) (kd_depth d) (kd_b d).
Definition kd_char (d : kd) (c : ascii) : res kd :=
  let '(evs, r) := kjchar (kd_p d) c in
  do s <- kcalls (Cb (kd_st d) (kd_depth d) (kd_b d)) evs;
  do (p, ok) <- r;
  let d := Kd p (cb_st s) (cb_depth s) (cb_b s) in
  Ok (match ok, kd_st d with
      | true, S_OK => if (kd_depth d =? 0)%Z then ksettle d else d
      | false, S_OK => Kd p S_ERROR (kd_depth d) (kd_b d)
      | _, _ => d
      end).

(** All characters of a byte sequence that ends there; also what is left unread. *)
Fixpoint kfeed (d : kd) (cs : bytes) : res (kd * bytes) :=
  if klive d then
    match cs with
    | [] => Ok (ksettle d, [])
    | c :: t => do d1 <- kd_char d c; kfeed d1 t
    end
  else Ok (d, cs).

(** ParseVariant on a flat byte sequence: the value and the bytes left unread. *)
Definition kstart : kd := Kd (erase jp_new) S_BEGIN 0 (BState [ABase true VNull] VNull false).
Definition flat_parse (bs : bytes) : res (value * bytes) :=
  do (d, rest) <- kfeed kstart bs;
  match kd_st d with
  | S_END => do b <- build (kd_b d) BEndDoc; Ok (b_result b, rest)
  | _ => Throw RuntimeError
  end.

(** ** The driver does this on every input that delivers its bytes *)

Definition RD (d : jd) (k : kd) : Prop :=
  R (d_p d) (kd_p k) /\ d_st d = kd_st k /\ d_depth d = kd_depth k /\ d_b d = kd_b k.

Lemma callbacks_rel p es : forall s dp b,
  callbacks (Jd p s dp b) es = do c <- kcalls (Cb s dp b) es; Ok (Jd p (cb_st c) (cb_depth c) (cb_b c)).
Proof.
  induction es as [|e es IH]; intros s dp b; [reflexivity|].
  cbn [callbacks kcalls].
  assert (K : callback (Jd p s dp b) e = do c <- kcall (Cb s dp b) e; Ok (Jd p (cb_st c) (cb_depth c) (cb_b c))).
  { unfold callback, kcall. destruct s, e; cbn [d_b d_st set_st cb_b cb_st rbind add_depth set_b d_p d_depth cb_depth];
      try (destruct (str_value s) as [v| | | |]; cbn [rbind]; try reflexivity);
      match goal with |- context [build b ?x] => destruct (build b x); reflexivity end. }
  rewrite K. destruct (kcall _ e) as [c| | | |]; cbn [rbind]; try reflexivity. rewrite IH. destruct c; reflexivity.
Qed.

Lemma settle_rel d k : RD d k -> RD (settle d) (ksettle k).
Proof.
  intros (H & S & D & B). unfold settle, ksettle. destruct (R_done _ _ H) as [E HR].
  destruct (jdone (d_p d)) as [o p], (kjdone (kd_p k)) as [o' p']. cbn [fst snd] in *. subst o'.
  split; [exact HR|]. cbn. auto.
Qed.

Lemma char_rel d k c : RD d k -> rrel RD (jd_char d c) (kd_char k c).
Proof.
  intros (H & S & D & B). unfold jd_char, kd_char.
  destruct (R_char _ _ c H) as [E HR]. destruct (jchar (d_p d) c) as [evs r], (kjchar (kd_p k) c) as [evs' r'].
  cbn [fst snd] in *. subst evs'. rewrite <- S, <- D, <- B. destruct d as [p s dp b]. cbn [d_p d_st d_depth d_b] in *.
  rewrite callbacks_rel. destruct (kcalls _ evs) as [cc| | | |]; cbn [rbind rrel]; auto.
  destruct r as [[p1 o]| | | |], r' as [[p1' o']| | | |]; cbn [rrel rbind] in HR |- *; try contradiction; auto.
  destruct HR as [Eo Hp]. cbn [fst snd] in *. subst o'.
  cbn [set_p d_st d_depth d_b d_p kd_st kd_depth kd_b set_st].
  assert (T : RD (Jd p1 (cb_st cc) (cb_depth cc) (cb_b cc)) (Kd p1' (cb_st cc) (cb_depth cc) (cb_b cc))).
  { split; [exact Hp|]. cbn. auto. }
  destruct o, (cb_st cc) eqn:ES; try exact T.
  - destruct (cb_depth cc =? 0)%Z; [apply settle_rel, T|exact T].
  - split; [exact Hp|]. cbn. auto.
Qed.

Lemma live_rel d k : RD d k -> live d = klive k.
Proof. intros (H & S & D & B). unfold live, klive. rewrite S, B. reflexivity. Qed.

Lemma chunk_rel cs : forall d k n rest, RD d k -> (cs = [] -> False) -> klive k = true ->
  match jd_chunk d cs n with
  | Ok (d1, m) => exists k1, RD d1 k1 /\ n < m /\ m <= n + llen cs /\ kfeed k (cs ++ rest) = kfeed k1 (drop (m - n) (cs ++ rest)) /\
      (m < n + llen cs -> klive k1 = false)
  | Throw e => kfeed k (cs ++ rest) = Throw e
  | UB => kfeed k (cs ++ rest) = UB
  | Abort => kfeed k (cs ++ rest) = Abort
  | Fuel => kfeed k (cs ++ rest) = Fuel
  end.
Proof.
  induction cs as [|c t IH]; intros d k n rest H NE L; [exfalso; apply NE; reflexivity|].
  cbn [jd_chunk app kfeed]. rewrite (live_rel _ _ H), L.
  pose proof (char_rel d k c H) as HC.
  destruct (jd_char d c) as [d1| | | |], (kd_char k c) as [k1| | | |]; cbn [rrel rbind] in *; try contradiction; subst; auto.
  assert (LT : llen (c :: t) = llen t + 1) by (unfold llen; cbn [List.length]; lia).
  assert (One : forall m, m = n + 1 -> drop (m - n) (c :: t ++ rest) = t ++ rest).
  { intros m ->. replace (n + 1 - n) with 1 by lia. reflexivity. }
  destruct t as [|c2 t].
  - cbn [jd_chunk]. exists k1. rewrite One by reflexivity. rewrite LT, llen_nil. split; [exact HC|]. repeat split; auto; try lia.
  - destruct (klive k1) eqn:L1.
    + specialize (IH d1 k1 (n + 1) rest HC ltac:(discriminate) L1).
      destruct (jd_chunk d1 (c2 :: t) (n + 1)) as [[d2 m]| | | |]; auto.
      destruct IH as (k2 & H2 & G1 & G2 & G3 & G4). exists k2. split; [exact H2|]. repeat split; auto; try lia.
      rewrite G3. f_equal. replace (m - n) with (1 + (m - (n + 1))) by lia. rewrite <- drop_drop. reflexivity.
    + cbn [jd_chunk]. rewrite (live_rel _ _ HC), L1. exists k1. rewrite One by reflexivity. split; [exact HC|]. repeat split; auto; lia.
Qed.

(** The bottom of the action stack stays the base element of an open document. *)
Definition inner (a : action) : Prop := match a with ABase _ _ => False | _ => True end.
Definition binv (b : bstate) : Prop := exists l v, b_acts b = l ++ [ABase true v] /\ Forall inner l /\ b_done b = false.

Lemma set_value_inv v b b' : binv b -> set_value v b = Ok b' -> binv b'.
Proof.
  intros (l & w & E & F & D). unfold set_value. rewrite E. destruct l as [|a l]; cbn [app].
  - intros [= <-]. exists [], v. auto.
  - inversion F as [|? ? F1 F2]; subst. destruct a as [| e k m|l0]; [destruct F1| |].
    + destruct e.
      * destruct (as_string v); cbn [rbind]; intros [= <-]. eexists (AMap false _ m :: l), w. cbn. repeat split; auto.
      * intros [= <-]. eexists (AMap true _ _ :: l), w. cbn. repeat split; auto.
    + intros [= <-]. eexists (AList _ :: l), w. cbn. repeat split; auto.
Qed.

Lemma finish_inv b b' : binv b -> (exists a t, b_acts b = a :: t /\ inner a) -> finish b = Ok b' -> binv b'.
Proof.
  intros (l & w & E & F & D) (a & t & E2 & NA). unfold finish. rewrite E2.
  destruct l as [|a0 l]; cbn [app] in E; rewrite E2 in E; injection E as -> ->; [destruct NA|].
  inversion F; subst.
  destruct a0; [destruct NA| |]; intros H; (eapply set_value_inv; [|exact H]); exists l, w; auto.
Qed.

Lemma build_inv b e b' : binv b -> e <> BEndDoc -> build b e = Ok b' -> binv b'.
Proof.
  intros H NE. pose proof H as (l & w & E & F & D). unfold build.
  destruct (b_acts b) as [|top t] eqn:A; [discriminate|].
  destruct e; try congruence.
  - destruct l as [|a0 l]; cbn in E; injection E as -> ->; intros [= <-].
    + exists [], w. auto.
    + inversion F; subst. destruct a0; [contradiction| |]; exact H.
  - intros [= <-]. exists (AMap true [] [] :: l), w. cbn. rewrite E. repeat split; auto. constructor; [exact Logic.I|exact F].
  - destruct top; try discriminate. apply finish_inv; [exact H|]. rewrite A. eexists _, _. split; [reflexivity|exact Logic.I].
  - intros [= <-]. exists (AList [] :: l), w. cbn. rewrite E. repeat split; auto. constructor; [exact Logic.I|exact F].
  - destruct top; try discriminate. apply finish_inv; [exact H|]. rewrite A. eexists _, _. split; [reflexivity|exact Logic.I].
  - apply set_value_inv. exact H.
Qed.

Lemma kcall_inv c e c' : binv (cb_b c) -> kcall c e = Ok c' ->
  binv (cb_b c') /\ cb_st c' = match cb_st c with S_BEGIN => S_OK | s => s end.
Proof.
  intros H. unfold kcall.
  assert (G : forall k x, x <> BEndDoc -> (do b <- build (cb_b c) x; Ok (Cb match cb_st c with S_BEGIN => S_OK | s => s end (cb_depth c + k) b)) = Ok c' ->
     binv (cb_b c') /\ cb_st c' = match cb_st c with S_BEGIN => S_OK | s => s end).
  { intros k x NE. destruct (build (cb_b c) x) as [b| | | |] eqn:Bd; cbn [rbind]; intros [= <-]. cbn. split; [|reflexivity].
    eapply build_inv; eauto. }
  destruct e; cbv zeta; try (apply G; discriminate).
  destruct (str_value s); cbn [rbind]; try discriminate. apply G; discriminate.
Qed.

Definition running (s : jstatus) : Prop := s = S_BEGIN \/ s = S_OK.
Definition kinv (d : kd) : Prop := binv (kd_b d) /\ kd_st d <> S_START /\ kd_st d <> S_DONE.

Lemma kcalls_inv es : forall c c', binv (cb_b c) -> kcalls c es = Ok c' -> binv (cb_b c') /\
  (cb_st c' = cb_st c \/ cb_st c' = S_OK).
Proof.
  induction es as [|e es IH]; intros c c' H.
  - intros [= <-]. auto.
  - cbn [kcalls]. destruct (kcall c e) as [c1| | | |] eqn:K; cbn [rbind]; try discriminate. intros K2.
    destruct (kcall_inv _ _ _ H K) as [H1 S1]. destruct (IH _ _ H1 K2) as [H2 S2]. split; [exact H2|].
    rewrite S1 in S2. destruct (cb_st c); auto. destruct S2; auto.
Qed.

Lemma ksettle_inv d : kinv d -> kinv (ksettle d) /\ (kd_st (ksettle d) = S_END \/ kd_st (ksettle d) = S_ERROR).
Proof.
  intros (H & N1 & N2). unfold ksettle, kinv. destruct (kjdone (kd_p d)) as [[] p]; cbn; repeat split; auto; discriminate.
Qed.

Lemma kd_char_inv d c d' : kinv d -> kd_char d c = Ok d' -> kinv d'.
Proof.
  intros (H & N1 & N2). unfold kd_char. destruct (kjchar (kd_p d) c) as [evs r].
  destruct (kcalls _ evs) as [s| | | |] eqn:K; cbn [rbind]; try discriminate.
  destruct (kcalls_inv _ (Cb _ _ _) s H K) as [H2 S2].
  destruct r as [[p ok]| | | |]; cbn [rbind]; try discriminate. intros [= <-]. cbn [kd_st kd_depth kd_b].
  cbn [cb_st] in S2.
  assert (T : kinv (Kd p (cb_st s) (cb_depth s) (cb_b s))).
  { unfold kinv. cbn. split; [exact H2|]. destruct S2 as [->| ->]; split; auto; discriminate. }
  destruct ok, (cb_st s) eqn:E; try exact T.
  - destruct (cb_depth s =? 0)%Z; [|exact T]. apply ksettle_inv. exact T.
  - unfold kinv. cbn. repeat split; auto; discriminate.
Qed.

Lemma kfeed_inv cs : forall d d' rest, kinv d -> kfeed d cs = Ok (d', rest) -> kinv d' /\ (kd_st d' = S_END \/ kd_st d' = S_ERROR).
Proof.
  assert (NL : forall d, kinv d -> klive d = false -> kd_st d = S_END \/ kd_st d = S_ERROR).
  { intros d ((l & w & E & _) & N1 & N2) L. unfold klive in L. rewrite E in L.
    destruct (kd_st d); try congruence; auto; destruct l; discriminate. }
  induction cs as [|c t IH]; intros d d' rest H; cbn [kfeed]; destruct (klive d) eqn:L.
  - intros [= <- _]. apply ksettle_inv, H.
  - intros [= <- _]. auto.
  - destruct (kd_char d c) as [d1| | | |] eqn:K; cbn [rbind]; try discriminate. intros K2.
    eapply IH; [|exact K2]. eapply kd_char_inv; eauto.
  - intros [= <- _]. auto.
Qed.

Section Spec.
  Variable I : Type.
  Variable getptr : I -> res (option bytes * I).
  Variable release : I -> N -> res I.
  (** [inv]: ready for GetPtr; [weak]: what is left when only part of a chunk was released,
      after which the parser asks for no more. *)
  Variables inv weak : I -> Prop.
  Variable unread : I -> bytes.
  Hypothesis inv_weak : forall i, inv i -> weak i.
  Hypothesis next_ok : forall i, inv i -> exists v i1, getptr i = Ok (v, i1) /\
    match v with
    | None => unread i = [] /\ weak i1 /\ unread i1 = []
    | Some cs => cs <> [] /\ exists rest, unread i = cs ++ rest /\
        forall n, n <= llen cs -> exists i2, release i1 n = Ok i2 /\ weak i2 /\ (n = llen cs -> inv i2) /\ unread i2 = drop n (unread i)
    end.

  Lemma parse_rel fuel : forall d k i, RD d k -> (klive k = true -> inv i) -> weak i -> (List.length (unread i) + 1 < fuel)%nat ->
    match kfeed k (unread i) with
    | Ok (k1, rest) => exists d1 i1, jd_parse I getptr release fuel d i = Ok (d1, i1) /\ RD d1 k1 /\ weak i1 /\ unread i1 = rest
    | r => jd_parse I getptr release fuel d i = match r with Ok _ => UB | Throw e => Throw e | UB => UB | Abort => Abort | Fuel => Fuel end
    end.
  Proof using next_ok inv_weak.
    induction fuel as [|f IH]; intros d k i H HL HI Hf; [lia|].
    cbn [jd_parse]. rewrite (live_rel _ _ H). destruct (klive k) eqn:L.
    2: { destruct (unread i) eqn:U; cbn [kfeed]; rewrite L; exists d, i; auto. }
    destruct (next_ok i (HL eq_refl)) as (v & i1 & -> & HV). cbn [rbind]. destruct v as [cs|].
    - destruct HV as (NE & rest & HU & HR). 
      pose proof (chunk_rel cs d k 0 rest H ltac:(congruence) L) as HC. rewrite HU.
      destruct (jd_chunk d cs 0) as [[d1 m]| | | |]; cbn [rbind]; try (rewrite HC; reflexivity).
      destruct HC as (k1 & H1 & G1 & G2 & G3 & G4). rewrite G3, N.sub_0_r. rewrite <- HU.
      destruct (HR m ltac:(lia)) as (i2 & -> & HI2 & HF2 & HU2). cbn [rbind]. rewrite <- HU2.
      apply IH; auto. { intros L1. apply HF2. destruct (N.eq_dec m (llen cs)); [assumption|]. rewrite G4 in L1 by lia. discriminate. }
      rewrite HU2. assert (0 < llen cs) by (destruct cs; [congruence|unfold llen; cbn; lia]).
      unfold drop. rewrite skipn_length. rewrite HU in *. rewrite app_length in *.
      unfold llen in *. lia.
    - destruct HV as (HU & HI1 & HU1). rewrite HU. cbn [kfeed]. rewrite L.
      exists (settle d), i1. split; [reflexivity|]. split; [apply settle_rel, H|]. auto.
  Qed.

  (** The whole of ParseVariant. *)
  Lemma pv_flat_weak i fuel : inv i -> (List.length (unread i) + 4 < fuel)%nat ->
    match flat_parse (unread i) with
    | Ok (v, rest) => exists d1 i1, parse_variant I getptr release fuel i = Ok (v, d1, i1) /\
        d_st d1 = S_DONE /\ weak i1 /\ unread i1 = rest
    | r => parse_variant I getptr release fuel i = match r with Ok _ => UB | Throw e => Throw e | UB => UB | Abort => Abort | Fuel => Fuel end
    end.
  Proof using next_ok inv_weak.
    intros HI Hf. destruct fuel as [|[|[|f]]]; [lia|lia|lia|].
    set (d0 := Jd jp_new S_BEGIN 0 (BState [ABase true VNull] VNull false)).
    assert (Step : parse_variant I getptr release (S (S (S f))) i = pv_loop I getptr release (S (S f)) d0 i) by reflexivity.
    rewrite Step. clear Step.
    assert (H0 : RD d0 kstart) by (split; [apply R_new|]; cbn; auto).
    unfold flat_parse.
    pose proof (parse_rel (S f) d0 kstart i H0 (fun _ => HI) (inv_weak _ HI) ltac:(lia)) as P.
    assert (K0 : kinv kstart).
    { unfold kinv. cbn. split; [|split; discriminate]. exists [], VNull. auto. }
    assert (Unf : forall n d i, pv_loop I getptr release (S n) d i =
      (do (m, d1, i1) <- jd_run I getptr release (S n) d i;
        if ((m =? 0) && negb (b_done (d_b d1)))%bool then pv_loop I getptr release n d1 i1
        else Ok (b_result (d_b d1), d1, i1))) by reflexivity.
    rewrite Unf.
    assert (UR : jd_run I getptr release (S (S f)) d0 i = (do (d1, i1) <- jd_parse I getptr release (S f) d0 i; jd_run I getptr release (S f) d1 i1)) by reflexivity.
    rewrite UR. clear Unf UR.
    destruct (kfeed kstart (unread i)) as [[k1 rest]| | | |] eqn:KF; cbn [rbind]; try (rewrite P; reflexivity).
    destruct P as (d1 & i1 & -> & (HR & HS & HD & HB) & HI1 & HU1). cbn [rbind].
    destruct (kfeed_inv _ _ _ _ K0 KF) as [((l & w & E & F & D) & _) [S1|S1]]; rewrite S1 in *.
    - cbn [jd_run]. rewrite HB, HS, E.
      assert (NE : exists a t, l ++ [ABase true w] = a :: t) by (destruct l; cbn; eauto).
      destruct NE as (a & t & NE). rewrite NE.
      destruct (build (kd_b k1) BEndDoc) as [b| | | |]; cbn [rbind]; try reflexivity.
      cbn [N.eqb andb]. eexists _, i1. split; [reflexivity|]. cbn. auto.
    - cbn [jd_run]. rewrite HB, HS, E. destruct l; reflexivity.
  Qed.
End Spec.

Section SpecSame.
  Variable I : Type.
  Variable getptr : I -> res (option bytes * I).
  Variable release : I -> N -> res I.
  Variable inv : I -> Prop.
  Variable unread : I -> bytes.
  Hypothesis next_ok : forall i, inv i -> exists v i1, getptr i = Ok (v, i1) /\
    match v with
    | None => unread i = [] /\ inv i1 /\ unread i1 = []
    | Some cs => cs <> [] /\ exists rest, unread i = cs ++ rest /\
        forall n, n <= llen cs -> exists i2, release i1 n = Ok i2 /\ inv i2 /\ unread i2 = drop n (unread i)
    end.

  Lemma pv_flat i fuel : inv i -> (List.length (unread i) + 4 < fuel)%nat ->
    match flat_parse (unread i) with
    | Ok (v, rest) => exists d1 i1, parse_variant I getptr release fuel i = Ok (v, d1, i1) /\
        d_st d1 = S_DONE /\ inv i1 /\ unread i1 = rest
    | r => parse_variant I getptr release fuel i = match r with Ok _ => UB | Throw e => Throw e | UB => UB | Abort => Abort | Fuel => Fuel end
    end.
  Proof using next_ok.
    apply (pv_flat_weak I getptr release inv inv unread); [auto|]. intros j Hj. destruct (next_ok j Hj) as (v & i1 & E & H).
    exists v, i1. split; [exact E|]. destruct v as [cs|]; [|exact H]. destruct H as (H1 & rest & H2 & H3). split; [exact H1|].
    exists rest. split; [exact H2|]. intros n Hn. destruct (H3 n Hn) as (i2 & A & B & C). exists i2. auto.
  Qed.
End SpecSame.

(** ** The flat parser always terminates *)

Definition nf {A} (r : res A) : Prop := r <> Fuel.
Definition onf {A} (r : list jev * res A) : Prop := snd r <> Fuel.

Lemma rbind_nf {A B} (r : res A) (k : A -> res B) : nf r -> (forall a, nf (k a)) -> nf (rbind r k).
Proof. unfold nf. destruct r; cbn; intros; try congruence; auto. Qed.
Lemma after_nf {A B} (r : list jev * res A) (k : A -> list jev * res B) : onf r -> (forall a, onf (k a)) -> onf (after r k).
Proof. unfold onf, after. destruct (snd r); cbn; intros; try congruence; auto. Qed.

Lemma kbuf_pop_nf s : nf (kbuf_pop s).
Proof. unfold kbuf_pop, nf. destruct (k_buf s); discriminate. Qed.
Lemma kparse_nf s : onf (kparse_buffer s).
Proof.
  unfold kparse_buffer, onf. destruct (k_type s); cbn; try discriminate.
  - destruct (sscanf_lld _); discriminate.
  - destruct (sscanf_llu _); discriminate.
Qed.
Lemma kdecode_nf s : nf (kdecode_unicode s).
Proof.
  unfold kdecode_unicode, nf. destruct (k_buf s) as [|? [|? [|? [|? [|? [|? ?]]]]]]; try discriminate.
  cbv zeta. repeat match goal with |- (if ?b then _ else _) <> _ => destruct b end; discriminate.
Qed.
Lemma kadd_escaped_nf s c : nf (kadd_escaped s c).
Proof.
  unfold kadd_escaped. apply rbind_nf; [apply kbuf_pop_nf|]. intros s1. cbv zeta. unfold nf, kbuf_push. cbn [rbind].
  repeat match goal with |- (if ?b then _ else _) <> _ => destruct b end; discriminate.
Qed.
Lemma kadd_nf s c k : nf (kadd_char s c k).
Proof.
  unfold kadd_char. destruct (k_escaped s); [apply kadd_escaped_nf|]. destruct (k_comment s); [discriminate|].
  cbv zeta. destruct (_ && _)%bool; discriminate.
Qed.
Lemma kassert_nf b s : onf (kjassert b s).
Proof. unfold kjassert, onf. destruct b; discriminate. Qed.

Lemma kjact_nf s a : onf (kjact s a).
Proof.
  destruct a; cbn [kjact]; cbv zeta;
  repeat match goal with
    | |- onf (after (quiet (kbuf_pop _)) _) => apply after_nf; [apply kbuf_pop_nf|intros]
    | |- onf (after (kparse_buffer _) _) => apply after_nf; [apply kparse_nf|intros]
    | |- onf (after (kjassert _ _) _) => apply after_nf; [apply kassert_nf|intros]
    | |- onf (after (quiet (kdecode_unicode _)) _) => apply after_nf; [apply kdecode_nf|intros [? []]]
    | |- onf (after (quiet (Ok _)) _) => apply after_nf; [discriminate|intros]
    | |- onf (after (_, Ok _) _) => apply after_nf; [discriminate|intros]
    | |- onf (match k_stack ?s with _ => _ end) => destruct (k_stack s) as [|[] ?]
    | |- onf (match kjpop ?s ?m with _ => _ end) => destruct (kjpop s m)
    | |- onf _ => discriminate
    end.
Qed.

Lemma kjchar_nf s c : onf (kjchar s c).
Proof.
  unfold kjchar. destruct (char_class c); [|discriminate]. apply after_nf; [apply kadd_nf|]. intros [s1 []]; [apply kjact_nf|discriminate].
Qed.

Lemma as_string_nf v : nf (as_string v).
Proof. unfold nf. destruct v as [|[]| | | | | | |]; discriminate. Qed.
Lemma set_value_nf v b : nf (set_value v b).
Proof.
  unfold set_value. destruct (b_acts b) as [|[[]|[]|] ?]; try discriminate.
  apply rbind_nf; [apply as_string_nf|discriminate].
Qed.
Lemma finish_nf b : nf (finish b).
Proof. unfold finish. destruct (b_acts b) as [|[| |] ?]; try discriminate; apply set_value_nf. Qed.
Lemma build_nf b e : nf (build b e).
Proof.
  unfold build. destruct (b_acts b) as [|a ?]; [discriminate|]. destruct e; try discriminate; try apply finish_nf; try apply set_value_nf;
    destruct a; try discriminate; apply finish_nf.
Qed.
Lemma decode_loop_nf s : forall ph, nf (decode_loop ph s).
Proof.
  assert (F : forall c, nf (decode_fragment c)).
  { intros c. unfold nf, decode_fragment. repeat match goal with |- context [match ?x with _ => _ end] => destruct x end; discriminate. }
  induction s as [|c t IH]; intros ph; [discriminate|]. cbn [decode_loop].
  apply rbind_nf; [apply F|]. intros f. destruct (f <? 0)%Z; [apply IH|].
  destruct ph; try (apply rbind_nf; [apply IH|discriminate]). apply IH.
Qed.
Lemma str_value_nf s : nf (str_value s).
Proof.
  unfold str_value. destruct (beqb _ _); [|discriminate]. apply rbind_nf; [apply decode_loop_nf|]. intros d.
  destruct (_ <? _); discriminate.
Qed.
Lemma kcall_nf c e : nf (kcall c e).
Proof.
  unfold kcall. cbv zeta. destruct e; try (apply rbind_nf; [apply build_nf|discriminate]).
  apply rbind_nf; [apply str_value_nf|]. intros. apply rbind_nf; [apply build_nf|discriminate].
Qed.
Lemma kcalls_nf es : forall c, nf (kcalls c es).
Proof. induction es as [|e es IH]; intros c; [discriminate|]. cbn [kcalls]. apply rbind_nf; [apply kcall_nf|]. intros; apply IH. Qed.

Lemma kd_char_nf d c : nf (kd_char d c).
Proof.
  unfold kd_char. pose proof (kjchar_nf (kd_p d) c) as H. destruct (kjchar (kd_p d) c) as [evs r]. 
  apply rbind_nf; [apply kcalls_nf|]. intros s. apply rbind_nf; [exact H|]. intros [p ok]. discriminate.
Qed.
Lemma kfeed_nf cs : forall d, nf (kfeed d cs).
Proof.
  induction cs as [|c t IH]; intros d; cbn [kfeed]; destruct (klive d); try discriminate.
  apply rbind_nf; [apply kd_char_nf|]. intros; apply IH.
Qed.
Lemma flat_nofuel bs : flat_parse bs <> Fuel.
Proof.
  unfold flat_parse. apply rbind_nf; [apply kfeed_nf|]. intros [d rest]. destruct (kd_st d); try discriminate.
  apply rbind_nf; [apply build_nf|discriminate].
Qed.
