(** From a sentence of the JSON grammar to the Variant (proof device). *)
From Verif Require Import Base CNum Float FloatText ParserInput Value Convert Builder JSONParserC JSONCore JSONDriver JSONFlat
  JsonGrammar JSONAccept.
Open Scope N_scope.

Section jtree_ind.
  Variable P : jtree -> Prop.
  Hypothesis HNul : P TNul.
  Hypothesis HBool : forall b, P (TBool b).
  Hypothesis HInt : forall s n, P (TInt s n).
  Hypothesis HDec : forall s D E, P (TDec s D E).
  Hypothesis HStr : forall s, P (TStr s).
  Hypothesis HArr : forall l, Forall P l -> P (TArr l).
  Hypothesis HObj : forall m, Forall (fun kv => P (snd kv)) m -> P (TObj m).
  Fixpoint jtree_ind' (v : jtree) : P v :=
    match v with
    | TNul => HNul | TBool b => HBool b | TInt s n => HInt s n | TDec s D E => HDec s D E | TStr s => HStr s
    | TArr l => HArr l ((fix go l := match l return Forall P l with
                           | [] => Forall_nil _
                           | x :: t => Forall_cons _ (jtree_ind' x) (go t) end) l)
    | TObj m => HObj m ((fix go m := match m return Forall (fun kv => P (snd kv)) m with
                           | [] => Forall_nil _
                           | kv :: t => Forall_cons kv (jtree_ind' (snd kv)) (go t) end) m)
    end.
End jtree_ind.

(** The Variant the library makes of a tree. *)
Fixpoint tval (t : jtree) : res value :=
  match t with
  | TNul => Ok VNull
  | TBool b => Ok (VBool b)
  | TInt true n => Ok (VInt (Z.max (- 2^63) (- Z.of_N n)))
  | TInt false n => Ok (VUns (if 2^64 <=? n then 2^64 - 1 else n))
  | TDec neg D E => Ok (VFlt (ld_of_d (dec_to_d neg D E)))
  | TStr s => str_value s
  | TArr l => do vs <- (fix go l := match l with
                                    | [] => Ok []
                                    | x :: t => do v <- tval x; do vs <- go t; Ok (v :: vs) end) l; Ok (VList vs)
  | TObj m => do vs <- (fix go m acc := match m with
                                    | [] => Ok acc
                                    | (k, x) :: t => do v <- tval x; go t (mset k v acc) end) m []; Ok (VMap vs)
  end.
Fixpoint tvals (l : list jtree) : res (list value) :=
  match l with [] => Ok [] | x :: t => do v <- tval x; do vs <- tvals t; Ok (v :: vs) end.
Fixpoint tmems (m : list (bytes * jtree)) (acc : list (bytes * value)) : res (list (bytes * value)) :=
  match m with [] => Ok acc | (k, x) :: t => do v <- tval x; tmems t (mset k v acc) end.
Lemma tval_arr l : tval (TArr l) = do vs <- tvals l; Ok (VList vs).
Proof. reflexivity. Qed.
Lemma tval_obj m : tval (TObj m) = do vs <- tmems m []; Ok (VMap vs).
Proof. reflexivity. Qed.

(** ** Events that keep the document open *)

Fixpoint safe (c : cb) (es : list jev) (c' : cb) : Prop :=
  match es with
  | [] => c = c'
  | e :: t => exists c1, kcall c e = Ok c1 /\ (0 < cb_depth c1)%Z /\ b_acts (cb_b c1) <> [] /\ cb_st c1 = S_OK /\ safe c1 t c'
  end.

Lemma safe_app c a b c2 : safe c (a ++ b) c2 <-> exists c1, safe c a c1 /\ safe c1 b c2.
Proof.
  revert c. induction a as [|e a IH]; intros c; cbn [app safe].
  - split; [eauto|]. intros (c1 & <- & H). exact H.
  - split.
    + intros (c1 & H1 & H2 & H3 & H4 & H). apply IH in H as (c3 & Ha & Hb). exists c3. split; [|exact Hb]. exists c1. auto.
    + intros (c3 & (c1 & H1 & H2 & H3 & H4 & Ha) & Hb). exists c1. repeat split; auto. apply IH. eauto.
Qed.

Lemma safe_calls c es c' : safe c es c' -> kcalls c es = Ok c'.
Proof.
  revert c. induction es as [|e es IH]; intros c; cbn [safe kcalls]; [intros ->; reflexivity|].
  intros (c1 & -> & _ & _ & _ & H). cbn [rbind]. auto.
Qed.

Definition open_doc (c : cb) : Prop := (0 < cb_depth c)%Z /\ b_acts (cb_b c) <> [] /\ cb_st c = S_OK.

Lemma safe_open c es c' : open_doc c -> safe c es c' -> open_doc c'.
Proof.
  revert c. induction es as [|e es IH]; intros c O; cbn [safe]; [intros <-; exact O|].
  intros (c1 & _ & H1 & H2 & H3 & H). apply (IH c1); [repeat split|]; auto.
Qed.

Definition kd_of (p : core) (c : cb) : kd := Kd p (cb_st c) (cb_depth c) (cb_b c).

Lemma open_live p c : open_doc c -> klive (kd_of p c) = true.
Proof. intros (_ & H & E). unfold klive, kd_of. cbn [kd_st kd_b]. rewrite E. destruct (b_acts (cb_b c)); congruence. Qed.

Lemma kfeed_safe t : forall p es p' c c' rest, cfeed p t = Some (es, p') -> open_doc c -> safe c es c' ->
  kfeed (kd_of p c) (t ++ rest) = kfeed (kd_of p' c') rest.
Proof.
  induction t as [|x t IH]; intros p es p' c c' rest F O S; cbn [cfeed app] in *.
  - injection F as <- <-. cbn [safe] in S. subst. reflexivity.
  - destruct (kjchar p x) as [e r] eqn:EJ. destruct r as [[p1 o]| | | |]; try discriminate. destruct o; [|discriminate].
    destruct (cfeed p1 t) as [[e2 p2]|] eqn:E; [|discriminate]. injection F as <- <-.
    apply safe_app in S as (c1 & S1 & S2). pose proof (safe_open _ _ _ O S1) as O1.
    cbn [kfeed]. rewrite (open_live p c O).
    assert (D : kd_char (kd_of p c) x = Ok (kd_of p1 c1)).
    { unfold kd_char. cbn [kd_of kd_p kd_st kd_depth kd_b]. rewrite EJ.
      replace (Cb (cb_st c) (cb_depth c) (cb_b c)) with c by (destruct c; reflexivity).
      rewrite (safe_calls _ _ _ S1). cbn [rbind kd_st kd_depth]. destruct O1 as (D1 & _ & D3).
      unfold kd_of. rewrite D3. destruct (Z.eqb_spec (cb_depth c1) 0); [lia|reflexivity]. }
    rewrite D. cbn [rbind]. exact (IH _ _ _ _ _ rest E O1 S2).
Qed.

(** ** The builder on the events of a tree *)

Definition takes (a : action) : Prop := match a with AList _ => True | AMap false _ _ => True | _ => False end.
Definition put (v : value) (a : action) : action :=
  match a with
  | AList l => AList (l ++ [v])
  | AMap _ k m => AMap true k (mset k v m)
  | ABase s _ => ABase s v
  end.

Lemma scalar_safe v e dp a t r dn : takes a -> (0 < dp)%Z ->
  (forall c, kcall c e = do b <- build (cb_b c) (BScalar v); Ok (Cb (match cb_st c with S_BEGIN => S_OK | s => s end) (cb_depth c + 0) b)) ->
  safe (Cb S_OK dp (BState (a :: t) r dn)) [e] (Cb S_OK dp (BState (put v a :: t) r dn)).
Proof.
  intros Ha Hd He. cbn [safe]. exists (Cb S_OK dp (BState (put v a :: t) r dn)). rewrite He.
  split; [|cbn; repeat split; auto; discriminate]. cbn [cb_b cb_st cb_depth build b_acts]. unfold set_value. cbn [b_acts b_result b_done].
  destruct a as [s v0|ek k m|l]; try contradiction; [destruct ek; [contradiction|]|]; cbn [rbind put]; rewrite Z.add_0_r; reflexivity.
Qed.

Lemma tree_safe : forall t v, tval t = Ok v -> forall dp a acts r dn, takes a -> (0 < dp)%Z ->
  safe (Cb S_OK dp (BState (a :: acts) r dn)) (tevents t) (Cb S_OK dp (BState (put v a :: acts) r dn)).
Proof.
  induction t as [| | | | |l IH|m IH] using jtree_ind'; intros v Hv dp a acts r dn Ha Hd.
  - injection Hv as <-. apply scalar_safe; auto.
  - injection Hv as <-. destruct b; apply scalar_safe; auto.
  - destruct s; injection Hv as <-; apply scalar_safe; auto.
  - injection Hv as <-. apply scalar_safe; auto.
  - cbn [tval tevents] in *. apply scalar_safe; auto. intros c. unfold kcall. rewrite Hv. reflexivity.
  - rewrite tval_arr in Hv. destruct (tvals l) as [vs| | | |] eqn:EL; try discriminate. cbn [rbind] in Hv. injection Hv as <-.
    assert (L : forall l0, Forall (fun t => forall v, tval t = Ok v -> forall dp a acts r dn, takes a -> (0 < dp)%Z ->
                  safe (Cb S_OK dp (BState (a :: acts) r dn)) (tevents t) (Cb S_OK dp (BState (put v a :: acts) r dn))) l0 ->
                forall vs0 done, tvals l0 = Ok vs0 ->
                safe (Cb S_OK (dp + 1) (BState (AList done :: a :: acts) r dn)) (flat_map tevents l0)
                     (Cb S_OK (dp + 1) (BState (AList (done ++ vs0) :: a :: acts) r dn))).
    { clear EL IH vs l. induction 1 as [|x l0 Hx _ IHl]; intros vs0 done E; cbn [tvals flat_map] in *.
      - injection E as <-. cbn [safe]. now rewrite app_nil_r.
      - destruct (tval x) as [vx| | | |] eqn:Ex; try discriminate. cbn [rbind] in E.
        destruct (tvals l0) as [vs1| | | |]; try discriminate. cbn [rbind] in E. injection E as <-.
        apply safe_app. eexists. split; [apply (Hx _ eq_refl); [exact I|lia]|]. cbn [put].
        replace (done ++ vx :: vs1) with ((done ++ [vx]) ++ vs1) by (now rewrite <- app_assoc). apply IHl. reflexivity. }
    cbn [tevents]. exists (Cb S_OK (dp + 1) (BState (AList [] :: a :: acts) r dn)).
    split; [reflexivity|]. split; [cbn; lia|]. split; [discriminate|]. split; [reflexivity|].
    apply safe_app. exists (Cb S_OK (dp + 1) (BState (AList vs :: a :: acts) r dn)). split; [exact (L l IH vs [] EL)|].
    exists (Cb S_OK dp (BState (put (VList vs) a :: acts) r dn)).
    split; [|split; [exact Hd|]; split; [discriminate|]; split; reflexivity].
    cbn [kcall cb_b cb_st cb_depth build b_acts finish b_result b_done set_value].
    unfold build, finish, set_value. cbn [b_acts b_result b_done].
    destruct a as [s v0|ek k m|l0]; try contradiction; [destruct ek; [contradiction|]|]; cbn [rbind put];
      replace (dp + 1 + -1)%Z with dp by lia; reflexivity.
  - rewrite tval_obj in Hv. destruct (tmems m []) as [vs| | | |] eqn:EL; try discriminate. cbn [rbind] in Hv. injection Hv as <-.
    assert (L : forall l0, Forall (fun kv => forall v, tval (snd kv) = Ok v -> forall dp a acts r dn, takes a -> (0 < dp)%Z ->
                  safe (Cb S_OK dp (BState (a :: acts) r dn)) (tevents (snd kv)) (Cb S_OK dp (BState (put v a :: acts) r dn))) l0 ->
                forall vs0 done k0, tmems l0 done = Ok vs0 -> exists k1,
                safe (Cb S_OK (dp + 1) (BState (AMap true k0 done :: a :: acts) r dn)) (flat_map (fun kv => JKey (fst kv) :: tevents (snd kv)) l0)
                     (Cb S_OK (dp + 1) (BState (AMap true k1 vs0 :: a :: acts) r dn))).
    { clear EL IH vs m. induction 1 as [|[k x] l0 Hx _ IHl]; intros vs0 done k0 E; cbn [tmems flat_map fst snd] in *.
      - injection E as <-. exists k0. reflexivity.
      - destruct (tval x) as [vx| | | |] eqn:Ex; try discriminate. cbn [rbind] in E.
        destruct (IHl vs0 (mset k vx done) k E) as (k1 & S). exists k1.
        cbn [app safe]. exists (Cb S_OK (dp + 1) (BState (AMap false k done :: a :: acts) r dn)).
        split; [cbn; rewrite Z.add_0_r; reflexivity|]. split; [cbn; lia|]. split; [discriminate|]. split; [reflexivity|].
        apply safe_app. eexists. split; [apply (Hx _ eq_refl); [exact I|lia]|]. exact S. }
    destruct (L m IH vs [] [] EL) as (k1 & S).
    cbn [tevents]. exists (Cb S_OK (dp + 1) (BState (AMap true [] [] :: a :: acts) r dn)).
    split; [reflexivity|]. split; [cbn; lia|]. split; [discriminate|]. split; [reflexivity|].
    apply safe_app. eexists. split; [exact S|].
    exists (Cb S_OK dp (BState (put (VMap vs) a :: acts) r dn)).
    split; [|split; [exact Hd|]; split; [discriminate|]; split; reflexivity].
    unfold kcall, build, finish, set_value. cbn [b_acts b_result b_done cb_b cb_st cb_depth].
    destruct a as [s v0|ek k m0|l0]; try contradiction; [destruct ek; [contradiction|]|]; cbn [rbind put];
      replace (dp + 1 + -1)%Z with dp by lia; reflexivity.
Qed.

Lemma trees_safe l vs dp done acts r dn : tvals l = Ok vs -> (0 < dp)%Z ->
  safe (Cb S_OK dp (BState (AList done :: acts) r dn)) (flat_map tevents l) (Cb S_OK dp (BState (AList (done ++ vs) :: acts) r dn)).
Proof.
  revert vs done. induction l as [|x l IH]; intros vs done E Hd; cbn [tvals flat_map] in *.
  - injection E as <-. cbn [safe]. now rewrite app_nil_r.
  - destruct (tval x) as [vx| | | |] eqn:Ex; try discriminate. cbn [rbind] in E.
    destruct (tvals l) as [vs1| | | |]; try discriminate. cbn [rbind] in E. injection E as <-.
    apply safe_app. eexists. split; [apply (tree_safe _ _ Ex); [exact I|lia]|]. cbn [put].
    replace (done ++ vx :: vs1) with ((done ++ [vx]) ++ vs1) by (now rewrite <- app_assoc). apply IH; auto.
Qed.

Lemma members_safe m vs dp done k0 acts r dn : tmems m done = Ok vs -> (0 < dp)%Z -> exists k1,
  safe (Cb S_OK dp (BState (AMap true k0 done :: acts) r dn)) (flat_map (fun kv => JKey (fst kv) :: tevents (snd kv)) m)
       (Cb S_OK dp (BState (AMap true k1 vs :: acts) r dn)).
Proof.
  revert vs done k0. induction m as [|[k x] m IH]; intros vs done k0 E Hd; cbn [tmems flat_map fst snd] in *.
  - injection E as <-. exists k0. reflexivity.
  - destruct (tval x) as [vx| | | |] eqn:Ex; try discriminate. cbn [rbind] in E.
    destruct (IH vs (mset k vx done) k E Hd) as (k1 & S). exists k1.
    cbn [app safe]. exists (Cb S_OK dp (BState (AMap false k done :: acts) r dn)).
    split; [cbn; rewrite Z.add_0_r; reflexivity|]. split; [cbn; lia|]. split; [discriminate|]. split; [reflexivity|].
    apply safe_app. eexists. split; [apply (tree_safe _ _ Ex); [exact I|lia]|]. exact S.
Qed.

(** ** Documents *)

Lemma kfeed_start_ws w rest : wsp w -> kfeed kstart (w ++ rest) = kfeed kstart rest.
Proof.
  unfold wsp. induction w as [|c w IH]; intros H; [reflexivity|]. cbn [forallb] in H. apply andb_true_iff in H as [Hc Hw].
  cbn [app kfeed]. change (klive kstart) with true. cbv iota.
  assert (D : kd_char kstart c = Ok kstart).
  { destruct (ws_class c Hc) as (k & Ek & Wk). unfold kd_char, kstart. cbn [kd_p]. unfold kjchar. rewrite Ek.
    destruct k; try discriminate; reflexivity. }
  rewrite D. cbn [rbind]. exact (IH Hw).
Qed.

(** The last character of the document. *)
Lemma kfeed_last p c x e2 ev c2 v rest : open_doc c -> safe c e2 c2 ->
  kjchar p x = (e2 ++ [ev], Ok (K SOK SGO TNone [MDone] [], true)) ->
  kcall c2 ev = Ok (Cb S_OK 0 (BState [ABase true v] VNull false)) ->
  kfeed (kd_of p c) (x :: rest) = Ok (Kd (K SOK SGO TNone [] []) S_END 0 (BState [ABase true v] VNull false), rest).
Proof.
  intros O S J C. cbn [kfeed]. rewrite (open_live p c O).
  assert (D : kd_char (kd_of p c) x = Ok (Kd (K SOK SGO TNone [] []) S_END 0 (BState [ABase true v] VNull false))).
  { unfold kd_char. cbn [kd_of kd_p kd_st kd_depth kd_b]. rewrite J.
    replace (Cb (cb_st c) (cb_depth c) (cb_b c)) with c by (destruct c; reflexivity).
    assert (KA : forall a b c0, kcalls c0 (a ++ b) = do c1 <- kcalls c0 a; kcalls c1 b).
    { induction a as [|y a IH]; intros b c0; [reflexivity|]. cbn [app kcalls]. destruct (kcall c0 y); cbn [rbind]; auto. }
    rewrite KA, (safe_calls _ _ _ S). cbn [rbind kcalls]. rewrite C. reflexivity. }
  rewrite D. cbn [rbind]. destruct rest; reflexivity.
Qed.

Definition root (t : jtree) : Prop := match t with TArr _ | TObj _ => True | _ => False end.

Theorem read_document text t v : lib_json text t -> root t -> tval t = Ok v ->
  exists w2, wsp w2 /\ flat_parse text = Ok (v, w2) /\ exists w1 body, text = w1 ++ body ++ w2.
Proof.
  intros (w1 & body & w2 & -> & W1 & HV & W2) Hr Ht. exists w2. split; [exact W2|]. split; [|eauto].
  unfold flat_parse. rewrite (kfeed_start_ws w1 _ W1).
  assert (O1 : forall a, open_doc (Cb S_OK 1 (BState [a; ABase true VNull] VNull false))) by (intros; repeat split; discriminate).
  assert (KF : kfeed kstart (body ++ w2) = Ok (Kd (K SOK SGO TNone [] []) S_END 0 (BState [ABase true v] VNull false), w2)).
  { inversion HV; subst; cbn [root] in Hr; try contradiction.
    - match goal with X : lib_num _ _ |- _ => inversion X; subst; contradiction end.
    - (* empty array *)
      injection Ht as <-. cbn [app]. rewrite <- app_assoc.
      change (kfeed kstart ("["%char :: w ++ ["]"%char] ++ w2))
        with (kfeed (kd_of (K SAR SGO TNone [MArray; MDone] []) (Cb S_OK 1 (BState [AList []; ABase true VNull] VNull false))) (w ++ ["]"%char] ++ w2)).
      erewrite kfeed_safe; [|apply feed_ws; [reflexivity|assumption]|apply O1|reflexivity].
      cbn [app]. apply (kfeed_last _ _ _ [] JArrayEnd _ (VList []) w2 (O1 _) eq_refl); reflexivity.
    - rewrite tval_arr in Ht. destruct (tvals l) as [vs| | | |] eqn:E; try discriminate. injection Ht as <-.
      cbn [app]. rewrite <- app_assoc.
      change (kfeed kstart ("["%char :: t0 ++ ["]"%char] ++ w2))
        with (kfeed (kd_of (K SAR SGO TNone [MArray; MDone] []) (Cb S_OK 1 (BState [AList []; ABase true VNull] VNull false))) (t0 ++ ["]"%char] ++ w2)).
      destruct feed_values as (_ & FE & _).
      match goal with X : jelems _ _ _ _ _ |- _ => destruct (FE _ _ X SAR SGO [MDone] eq_refl) as (e1 & e2 & s' & F & V & EE) end.
      pose proof (trees_safe l vs 1 [] [ABase true VNull] VNull false E eq_refl) as S. rewrite <- EE in S.
      apply safe_app in S as (c1 & S1 & S2).
      erewrite kfeed_safe; [|exact F|apply O1|exact S1].
      cbn [app]. eapply (kfeed_last _ _ _ e2 JArrayEnd); [exact (safe_open _ _ _ (O1 _) S1)|exact S2|apply vend_close_array, V|]. reflexivity.
    - injection Ht as <-. cbn [app]. rewrite <- app_assoc.
      change (kfeed kstart ("{"%char :: w ++ ["}"%char] ++ w2))
        with (kfeed (kd_of (K SOB SGO TNone [MKey; MDone] []) (Cb S_OK 1 (BState [AMap true [] []; ABase true VNull] VNull false))) (w ++ ["}"%char] ++ w2)).
      erewrite kfeed_safe; [|apply feed_ws; [reflexivity|assumption]|apply O1|reflexivity].
      cbn [app]. apply (kfeed_last _ _ _ [] JObjectEnd _ (VMap []) w2 (O1 _) eq_refl); reflexivity.
    - rewrite tval_obj in Ht. destruct (tmems m []) as [vs| | | |] eqn:E; try discriminate. injection Ht as <-.
      cbn [app]. rewrite <- app_assoc.
      change (kfeed kstart ("{"%char :: t0 ++ ["}"%char] ++ w2))
        with (kfeed (kd_of (K SOB SGO TNone [MKey; MDone] []) (Cb S_OK 1 (BState [AMap true [] []; ABase true VNull] VNull false))) (t0 ++ ["}"%char] ++ w2)).
      destruct feed_values as (_ & _ & FM).
      match goal with X : jmembers _ _ _ _ _ |- _ => destruct (FM _ _ X SOB SGO [MDone] eq_refl) as (e1 & e2 & s' & F & V & EE) end.
      destruct (members_safe m vs 1 [] [] [ABase true VNull] VNull false E eq_refl) as (k1 & S). rewrite <- EE in S.
      apply safe_app in S as (c1 & S1 & S2).
      erewrite kfeed_safe; [|exact F|apply O1|exact S1].
      cbn [app]. eapply (kfeed_last _ _ _ e2 JObjectEnd); [exact (safe_open _ _ _ (O1 _) S1)|exact S2|apply vend_close_object, V|]. reflexivity. }
  rewrite KF. reflexivity.
Qed.
