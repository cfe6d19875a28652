(** C01 (JSON round trip), C02 (pretty printing) and C03 (emitted JSON is well formed). *)
From Verif Require P_FloatText.
From Verif Require Import Base CNum Float FloatText FloatTextProofs FloatProofs Value Emit Base64 Base64Spec Base64Proofs P_Base64 Convert Builder
  ParserInput ParserInputProofs GuessFormat P_GuessFormat JSONEmitter JsonText JsonTextProofs P_JSONEmit
  JSONParserC JSONCore JSONDriver JSONFlat Deserialize P_JSONInput JsonGrammar JsonMeaning JSONAccept JSONRead P_JSONRead JsonTree.
From Coq Require Import SpecFloat.
From Flocq Require Import Core.Digits Core.Zaux Core.Float_prop.
Open Scope N_scope.

(** ** Specification *)

(** Equal Variants: same shape, keys, strings, booleans and nulls, numbers of the same
    value, blobs with the same bytes. *)
Inductive same : value -> value -> Prop :=
| SNull : same VNull VNull
| SBool b : same (VBool b) (VBool b)
| SInt a b z : int_val a = Some z -> int_val b = Some z -> same a b
| SFlt x : same (VFlt x) (VFlt x)
| SStr s : same (VStr s) (VStr s)
| SBlob a b : List.concat a = List.concat b -> same (VBlob a) (VBlob b)
| SList l l' : Forall2 same l l' -> same (VList l) (VList l')
| SMap m m' : Forall2 (fun kv kv' => fst kv = fst kv' /\ same (snd kv) (snd kv')) m m' -> same (VMap m) (VMap m').

Definition container (v : value) : Prop := match v with VList _ | VMap _ => True | _ => False end.

(** Sizes the emitter copes with at nesting [d]; no empty buffer in a blob; in strict
    mode no blob and no infinity or NaN. *)
Fixpoint emittable (p : jparams) (d : N) (v : value) : Prop :=
  match v with
  | VNull | VBool _ | VInt _ | VUns _ => True
  | VFlt x => j_strict p = true -> f_finite (d_of_ld x) = true
  | VStr s => llen s < 2^32
  | VBlob b => j_strict p = false /\ Forall (fun x => x <> []) b /\ llen (List.concat b) < 1000000000
  | VList l => (d + 1) * j_indent p < 2^32 /\
      (fix go l := match l with [] => True | x :: t => emittable p (d + 1) x /\ go t end) l
  | VMap m => (d + 1) * j_indent p < 2^32 /\
      (fix go m := match m with [] => True
                   | kv :: t => (llen (fst kv) < 2^32 /\ emittable p (d + 1) (snd kv)) /\ go t end) m
  end.

(** Nothing the text cannot express: no NUL in strings and keys, and every float a
    finite double. *)
Definition no_nul (s : bytes) : Prop := ~ In (bchr 0) s.
Fixpoint faithful (v : value) : Prop :=
  match v with
  | VFlt x => exists y, is_double y /\ f_finite y = true /\ x = ld_of_d y
  | VStr s => no_nul s
  | VList l => (fix go l := match l with [] => True | x :: t => faithful x /\ go t end) l
  | VMap m => (fix go m := match m with [] => True | kv :: t => (no_nul (fst kv) /\ faithful (snd kv)) /\ go t end) m
  | _ => True
  end.

(** ** Proofs: sizes *)

Lemma len_ndigits n : 0 < n -> Z.of_N (llen (dec_of_N n)) = ndigits10 (Z.of_N n).
Proof. intros H. unfold ndigits10, llen. rewrite N2Z.id. lia. Qed.

Lemma len_dec n k : n < 10 ^ k -> llen (dec_of_N n) <= N.max 1 k.
Proof.
  intros H. destruct (N.eq_dec n 0) as [->|N]; [change (llen (dec_of_N 0)) with 1; lia|].
  destruct (ndigits10_bounds (Z.of_N n) ltac:(lia)) as (P & L & _). rewrite <- len_ndigits in * by lia.
  assert (Z.of_N n < 10 ^ Z.of_N k)%Z by (change 10%Z with (Z.of_N 10); rewrite <- N2Z.inj_pow; lia).
  assert (Z.of_N (llen (dec_of_N n)) - 1 < Z.of_N k)%Z by (apply (Z.pow_lt_mono_r_iff 10); lia). lia.
Qed.

Lemma len_int z : (- 2^63 <= z < 2^63)%Z -> llen (dec_of_Z z) < 2^32.
Proof.
  intros H. unfold dec_of_Z. destruct (z <? 0)%Z eqn:E.
  - rewrite llen_cons. pose proof (len_dec (Z.to_N (- z)) 20 ltac:(change (10^20) with 100000000000000000000; lia)). lia.
  - pose proof (len_dec (Z.to_N z) 20 ltac:(change (10^20) with 100000000000000000000; lia)). lia.
Qed.

Lemma ndigits_le n k : (0 < n < 10 ^ k)%Z -> (0 <= k)%Z -> (1 <= ndigits10 n <= Z.max 1 k)%Z.
Proof.
  intros H Hk. destruct (ndigits10_bounds n ltac:(lia)) as (P & L & _).
  assert (ndigits10 n - 1 < k)%Z by (apply (Z.pow_lt_mono_r_iff 10); lia). lia.
Qed.

Lemma bounded_range m e : SpecFloat.bounded 53 1024 m e = true -> (Zpos m < 2^53 /\ -1074 <= e <= 971)%Z.
Proof.
  unfold SpecFloat.bounded, SpecFloat.canonical_mantissa, SpecFloat.fexp, SpecFloat.emin. intros H.
  apply andb_true_iff in H as [H1 H2]. apply Zeq_bool_eq in H1.
  assert (D : (Zpos (digits2_pos m) = Zdigits radix2 (Zpos m))%Z) by (apply Zpos_digits2_pos).
  pose proof (Zdigits_correct radix2 (Zpos m)) as [_ C]. rewrite <- D in C. change (radix_val radix2) with 2%Z in C.
  assert (2 ^ Zpos (digits2_pos m) <= 2 ^ 53)%Z by (apply Z.pow_le_mono_r; lia). lia.
Qed.

Lemma len_print q x : is_double x -> f_finite x = true -> (q < 2^31)%Z -> llen (print_g q x) < 2^32.
Proof.
  intros V F Hq. unfold print_g. set (q' := Z.max q 1). assert (Q : (1 <= q' < 2^31)%Z) by lia.
  destruct x as [s|s| |s m e]; try discriminate.
  - rewrite llen_app, !llen_cons. unfold llen at 2. rewrite repeat_length.
    assert (llen (if s then ["-"%char] else []) <= 1) by (destruct s; cbn; lia). lia.
  - destruct (sci_digits q' _ _) as [D X] eqn:E. pose proof (sci_bounds _ _ _ _ _ (proj1 Q) E) as B.
    rewrite llen_app. assert (llen (if s then ["-"%char] else []) <= 1) by (destruct s; cbn; lia).
    assert (Nd : llen (dec_of_N (Z.to_N D)) = Z.to_N q').
    { assert (0 < 10 ^ (q' - 1))%Z by (apply Z.pow_pos_nonneg; lia).
      pose proof (ndigits10_unique D (q' - 1) ltac:(lia) ltac:(replace (q' - 1 + 1)%Z with q' by lia; exact B)) as U.
      pose proof (len_ndigits (Z.to_N D) ltac:(lia)) as L. rewrite Z2N.id in L by lia. lia. }
    destruct (bounded_range m e V) as [Bm Be].
    set (num := (if 0 <=? e then Z.pos m * 2 ^ e else Z.pos m)%Z) in *.
    set (den := (if 0 <=? e then 1 else 2 ^ (- e))%Z) in *.
    assert (T : (2 ^ 1080 < 10 ^ 330)%Z) by (vm_compute; reflexivity).
    assert (Bn : (0 < num < 10 ^ 330)%Z).
    { unfold num. destruct (0 <=? e)%Z eqn:C; [|pose proof (Z.pow_le_mono_r 2 53 1080 ltac:(lia) ltac:(lia)); lia].
      pose proof (Z.pow_pos_nonneg 2 e ltac:(lia) ltac:(lia)). split; [lia|].
      assert (Z.pos m * 2 ^ e <= 2 ^ 53 * 2 ^ e)%Z by (apply Z.mul_le_mono_nonneg_r; lia).
      rewrite <- Z.pow_add_r in H1 by lia. pose proof (Z.pow_le_mono_r 2 (53 + e) 1080 ltac:(lia) ltac:(lia)). lia. }
    assert (Bd : (0 < den < 10 ^ 330)%Z).
    { unfold den. destruct (0 <=? e)%Z eqn:C; [lia|]. pose proof (Z.pow_pos_nonneg 2 (- e) ltac:(lia) ltac:(lia)).
      pose proof (Z.pow_le_mono_r 2 (- e) 1080 ltac:(lia) ltac:(lia)). lia. }
    pose proof (ndigits_le num 330 Bn ltac:(lia)). pose proof (ndigits_le den 330 Bd ltac:(lia)).
    clearbody num den. clear T Bn Bd.
    assert (BX : (-400 <= X <= 400)%Z).
    { unfold sci_digits in E. assert (-331 <= dec_exponent num den <= 331)%Z.
      { clear - H0 H1. unfold dec_exponent. destruct (scale10 num den _) as [a b].
        set (k := ndigits10 num) in *. set (k' := ndigits10 den) in *. clearbody k k'. destruct (b <=? a)%Z; lia. }
      destruct (scale10 num den _) as [a b]. destruct (_ =? _)%Z; injection E as _ <-; lia. }
    clear E.
    assert (Le : llen (exp_text X) <= 6).
    { unfold exp_text. rewrite !llen_cons. pose proof (len_dec (Z.to_N (Z.abs X)) 3 ltac:(change (10^3) with 1000; lia)) as L.
      destruct (Z.abs X <? 10)%Z; rewrite ?llen_cons; lia. }
    assert (Sk : forall k : nat, llen (firstn k (dec_of_N (Z.to_N D))) + llen (skipn k (dec_of_N (Z.to_N D))) = Z.to_N q').
    { intros k. rewrite <- llen_app, firstn_skipn. exact Nd. }
    unfold layout_g. destruct (_ && _)%bool eqn:C; [destruct (0 <=? X)%Z|]; rewrite ?llen_app, ?llen_cons.
    + specialize (Sk (Z.to_nat (X + 1))). lia.
    + rewrite llen_app, Nd. unfold llen at 2. rewrite repeat_length. lia.
    + rewrite llen_app. specialize (Sk 1%nat). lia.
Qed.

Lemma llen_c_str s : llen (c_str s) <= llen s.
Proof.
  induction s as [|c s IH]; [reflexivity|]. cbn [c_str]. destruct (aeqb c (bchr 0)); rewrite !llen_cons; [|lia].
  change (llen []) with 0. lia.
Qed.

Lemma c_str_id s : no_nul s -> c_str s = s.
Proof.
  induction s as [|c s IH]; intros H; [reflexivity|]. cbn [c_str]. destruct (aeqb c (bchr 0)) eqn:E.
  - apply aeqb_eq in E. subst c. exfalso. apply H. left. reflexivity.
  - rewrite IH; [reflexivity|]. intros K. apply H. right. exact K.
Qed.

(** ** Proofs: what is emitted *)

Lemma len_rfc data : llen data < 1000000000 -> llen (rfc4648 data) <= 1333333340 /\ llen (rfc4648 data) = 4 * ((llen data + 2) / 3).
Proof.
  intros L. rewrite <- enc_list_rfc. unfold llen in *. rewrite enc_list_length; [|lia|lia|discriminate].
  change (0 <? 0 / 4) with false. cbv iota.
  assert ((N.of_nat (List.length data) + 2) / 3 < 333333335) by (apply N.div_lt_upper_bound; lia). lia.
Qed.

Lemma emittable_list p d l : emittable p d (VList l) <-> (d + 1) * j_indent p < 2^32 /\ Forall (emittable p (d + 1)) l.
Proof.
  cbn [emittable]. assert (K : (fix go l := match l with [] => True | x :: t => emittable p (d + 1) x /\ go t end) l <-> Forall (emittable p (d + 1)) l).
  { induction l as [|x l IH]; split; intros H; [constructor|exact I| |].
    - destruct H as [H1 H2]. constructor; [exact H1|]. apply IH, H2.
    - inversion H; subst. split; [assumption|]. apply IH. assumption. }
  tauto.
Qed.
Lemma emittable_map p d m : emittable p d (VMap m) <-> (d + 1) * j_indent p < 2^32 /\
  Forall (fun kv => llen (fst kv) < 2^32 /\ emittable p (d + 1) (snd kv)) m.
Proof.
  cbn [emittable]. assert (K : (fix go m := match m with [] => True
                   | kv :: t => (llen (fst kv) < 2^32 /\ emittable p (d + 1) (snd kv)) /\ go t end) m <->
      Forall (fun kv => llen (fst kv) < 2^32 /\ emittable p (d + 1) (snd kv)) m).
  { induction m as [|x l IH]; split; intros H; [constructor|exact I| |].
    - destruct H as [H1 H2]. constructor; [exact H1|]. apply IH, H2.
    - inversion H; subst. split; [assumption|]. apply IH. assumption. }
  tauto.
Qed.
Lemma faithful_list l : faithful (VList l) <-> Forall faithful l.
Proof.
  induction l as [|x l IH]; split; intros H; [constructor|exact I| |].
  - destruct H as [H1 H2]. constructor; [exact H1|]. apply IH, H2.
  - inversion H; subst. split; [assumption|]. apply IH. assumption.
Qed.
Lemma faithful_map m : faithful (VMap m) <-> Forall (fun kv => no_nul (fst kv) /\ faithful (snd kv)) m.
Proof.
  induction m as [|x l IH]; split; intros H; [constructor|exact I| |].
  - destruct H as [H1 H2]. constructor; [exact H1|]. apply IH, H2.
  - inversion H; subst. split; [assumption|]. apply IH. assumption.
Qed.

Lemma emittable_fits p v : j_prec p < 2^31 -> forall d, vok v -> emittable p d v -> jfits p d v.
Proof.
  intros Q. induction v as [|b|z|n|x|s|l IH|m IH|b] using value_ind'; intros d V K.
  - exact I.
  - exact I.
  - apply len_int, V.
  - cbn [jfits vok] in *. pose proof (len_dec n 20 ltac:(change (10^20) with 100000000000000000000; lia)). lia.
  - cbn [jfits vok emittable] in *. unfold flt_fits. split.
    + intros S. specialize (K S). destruct (d_of_ld x); try discriminate; reflexivity.
    + unfold flt_text. destruct (f_nan (d_of_ld x) || f_inf (d_of_ld x))%bool eqn:E; [reflexivity|].
      apply len_print; [apply d_of_ld_valid, V| |lia]. destruct (d_of_ld x); try discriminate; reflexivity.
  - cbn [jfits emittable] in *. pose proof (llen_c_str s). lia.
  - apply jfits_list. apply emittable_list in K as [K1 K2]. apply vok_list in V. split; [exact K1|].
    rewrite Forall_forall in *. eauto.
  - apply jfits_map. apply emittable_map in K as [K1 K2]. apply vok_map in V as [_ V]. split; [exact K1|].
    rewrite Forall_forall in *. intros kv H. destruct (K2 kv H) as [K3 K4]. pose proof (llen_c_str (fst kv)). split; [lia|]. eauto.
  - cbn [jfits emittable] in *. destruct K as (K1 & K2 & K3). split; [exact K1|]. split; [exact K2|].
    pose proof (len_rfc (List.concat b) K3). lia.
Qed.

Lemma str_value_plain s : no_nul s -> str_value s = Ok (VStr s).
Proof.
  intros H. unfold str_value. replace (beqb (firstn 5 s) blob_tag) with false; [reflexivity|].
  symmetry. apply beqb_neq. intros E. destruct s as [|c s]; [discriminate|]. injection E as -> _. apply H. left. reflexivity.
Qed.

Lemma str_value_c s : str_value (c_str s) = Ok (VStr (c_str s)).
Proof.
  apply str_value_plain. unfold no_nul. induction s as [|c s IH]; cbn [c_str]; [intros []|].
  destruct (aeqb c (bchr 0)) eqn:E; [intros []|]. intros [->|H]; [discriminate|auto].
Qed.

Lemma str_value_blob data : llen data < 1000000000 -> str_value (bchr 0 :: s2b "BLOB" ++ rfc4648 data) = Ok (VBlob [data]).
Proof.
  intros L. unfold str_value.
  change (firstn 5 (bchr 0 :: s2b "BLOB" ++ rfc4648 data)) with blob_tag. rewrite beqb_refl.
  change (skipn 5 (bchr 0 :: s2b "BLOB" ++ rfc4648 data)) with (rfc4648 data).
  change (bchr 0 :: s2b "BLOB" ++ rfc4648 data) with (blob_tag ++ rfc4648 data).
  rewrite base64_decode_meaning. 2: { intros H. apply rfc4648_chars in H. revert H. vm_compute. intuition discriminate. }
  rewrite meaning_rfc. cbn [rbind].
  destruct (len_rfc data L) as [L1 L2]. rewrite llen_app. change (llen blob_tag) with 5.
  replace (base64_decode_size _ <? llen data) with false; [reflexivity|]. symmetry. apply N.ltb_ge.
  unfold base64_decode_size. set (n := llen (rfc4648 data)) in *. unfold wrap32.
  pose proof (N.div_mod (llen data + 2) 3 ltac:(lia)) as D. pose proof (N.mod_lt (llen data + 2) 3 ltac:(lia)) as M.
  rewrite (N.mod_small (5 + n)) by lia. rewrite (N.mod_small ((5 + n) * 3)) by lia.
  pose proof (N.div_mod ((5 + n) * 3) 4 ltac:(lia)) as D2. pose proof (N.mod_lt ((5 + n) * 3) 4 ltac:(lia)) as M2.
  rewrite N.mod_small by lia. lia.
Qed.

Lemma flt_tree_back y : is_double y -> f_finite y = true -> tval (flt_tree 17 y) = Ok (VFlt (ld_of_d y)).
Proof.
  intros V F. unfold flt_tree. change (Z.max 17 1) with 17%Z. destruct y as [s|s| |s m e]; try discriminate.
  - reflexivity.
  - destruct (sci_digits 17 _ _) as [D X] eqn:E. cbn [tval]. replace (X - 17 + 1)%Z with (X - 16)%Z by lia.
    rewrite (digits_round_back s m e D X V E). reflexivity.
Qed.

Lemma tmems_sorted m ms : Forall2 (fun kv kv' => tval (snd kv) = Ok (snd kv') /\ fst kv = fst kv') m ms -> msorted ms ->
  forall acc, (forall k k', In k (mkeys acc) -> In k' (mkeys ms) -> bcmp k k' = Lt) -> tmems m acc = Ok (acc ++ ms).
Proof.
  induction 1 as [|[k t] [k' v] m ms [E1 E2] F IH]; intros S acc H; cbn [tmems]; [now rewrite app_nil_r|].
  cbn [fst snd] in *. subst k'. rewrite E1. cbn [rbind]. destruct S as [S1 S2].
  rewrite mset_last by (intros k' K; apply H; [exact K|left; reflexivity]).
  rewrite IH; [rewrite <- app_assoc; reflexivity|exact S2|].
  intros k1 k2 K1 K2. unfold mkeys in K1. rewrite map_app, in_app_iff in K1. destruct K1 as [K1|[<-|[]]].
  - apply H; [exact K1|right; exact K2].
  - apply S1, K2.
Qed.

Lemma tmems_ok m : Forall (fun kv => exists v, tval (snd kv) = Ok v) m -> forall acc, exists ms, tmems m acc = Ok ms.
Proof.
  induction 1 as [|[k t] m (v & E) _ IH]; intros acc; cbn [tmems]; [eauto|]. cbn [snd] in E. rewrite E. cbn [rbind]. apply IH.
Qed.

(** The Variant that comes back. *)
Lemma tval_vtree q p v : forall d, vok v -> emittable p d v ->
  exists v', tval (vtree q v) = Ok v' /\ (q = 17%Z -> faithful v -> same v v').
Proof.
  induction v as [|b|z|n|x|s|l IH|m IH|b] using value_ind'; intros d V K.
  - eexists. split; [reflexivity|constructor].
  - eexists. split; [reflexivity|constructor].
  - cbn [vtree vok] in *. destruct (z <? 0)%Z eqn:E; cbn [tval]; (eexists; split; [reflexivity|]); intros _ _.
    + apply (SInt _ _ z); [reflexivity|]. cbn [int_val]. f_equal. lia.
    + apply (SInt _ _ z); [reflexivity|]. cbn [int_val]. f_equal. destruct (2^64 <=? Z.abs_N z) eqn:E2; lia.
  - cbn [vtree vok tval] in *. eexists. split; [reflexivity|]. intros _ _. apply (SInt _ _ (Z.of_N n)); [reflexivity|].
    cbn [int_val]. destruct (2^64 <=? n) eqn:E2; [lia|reflexivity].
  - cbn [vtree]. assert (T : exists v', tval (flt_tree q (d_of_ld x)) = Ok v').
    { unfold flt_tree. destruct (d_of_ld x) as [s|s| |s m e]; try (eexists; reflexivity).
      destruct (sci_digits _ _ _). eexists. reflexivity. }
    destruct T as (v' & E). exists v'. split; [exact E|]. intros -> (y & Vy & Fy & ->).
    rewrite d_of_ld_of_d in E by exact Vy. rewrite flt_tree_back in E by assumption. injection E as <-. constructor.
  - cbn [vtree tval]. rewrite str_value_c. eexists. split; [reflexivity|]. intros _ F. rewrite (c_str_id s F). constructor.
  - cbn [vtree]. rewrite tval_arr. apply vok_list in V. apply emittable_list in K as [_ K].
    assert (T : exists vs, tvals (List.map (vtree q) l) = Ok vs /\ (q = 17%Z -> Forall faithful l -> Forall2 same l vs)).
    { revert V K. induction IH as [|x l Hx _ IHl]; intros V K; cbn [List.map tvals].
      - eexists. split; [reflexivity|]. constructor.
      - inversion V; inversion K; subst. destruct (Hx _ H1 H5) as (v & -> & Sv). destruct (IHl H2 H6) as (vs & -> & Ss).
        cbn [rbind]. eexists. split; [reflexivity|]. intros Q F. inversion F; subst. constructor; auto. }
    destruct T as (vs & -> & Ss). cbn [rbind]. eexists. split; [reflexivity|]. intros Q F. constructor. apply Ss; [exact Q|].
    apply faithful_list, F.
  - cbn [vtree]. rewrite tval_obj. apply vok_map in V as [S V]. apply emittable_map in K as [_ K].
    assert (T : exists ms, Forall2 (fun kv kv' => tval (snd kv) = Ok (snd kv') /\ fst kv = fst kv')
                              (List.map (fun kv => (c_str (fst kv), vtree q (snd kv))) m) ms /\
       (q = 17%Z -> Forall (fun kv => no_nul (fst kv) /\ faithful (snd kv)) m ->
          Forall2 (fun kv kv' => fst kv = fst kv' /\ same (snd kv) (snd kv')) m ms)).
    { clear S. revert V K. induction IH as [|[k x] m Hx _ IHm]; intros V K; cbn [List.map].
      - exists []. split; constructor.
      - inversion V as [|? ? V1 V2]; inversion K as [|? ? [K0 K1] K2]; subst. cbn [fst snd] in *.
        destruct (Hx _ V1 K1) as (v & Ev & Sv). destruct (IHm V2 K2) as (ms & Fm & Ss).
        exists ((c_str k, v) :: ms). split; [constructor; auto|]. intros Q F. inversion F as [|? ? [F0 F1] F2]; subst.
        constructor; [|auto]. cbn [fst snd] in *. rewrite (c_str_id k F0). auto. }
    destruct T as (ms & Fm & Ss).
    destruct (tmems_ok (List.map (fun kv => (c_str (fst kv), vtree q (snd kv))) m)) with (acc := @nil (bytes * value)) as (r & Er).
    { clear - Fm. induction Fm as [|? ? ? ? [E _] _ IH]; constructor; eauto. }
    rewrite Er. cbn [rbind]. eexists. split; [reflexivity|]. intros Q F. apply faithful_map in F. specialize (Ss Q F).
    assert (Mk : mkeys ms = mkeys m).
    { clear - Ss. unfold mkeys. induction Ss as [|? ? ? ? [E _] _ IH]; [reflexivity|]. cbn [List.map]. congruence. }
    assert (Sm : msorted ms).
    { clear - Mk S. revert ms Mk. induction m as [|[k v] m IH]; intros [|[k' v'] ms] Mk; try discriminate; [exact I|].
      unfold mkeys in Mk. cbn [List.map fst] in Mk. injection Mk as -> Mk. destruct S as [S1 S2].
      split; [|apply IH; assumption]. unfold mkeys. rewrite Mk. exact S1. }
    pose proof (tmems_sorted _ _ Fm Sm [] ltac:(intros ? ? K1; destruct K1)) as X. rewrite X in Er. injection Er as <-. constructor. exact Ss.
  - cbn [vtree tval]. destruct K as (_ & _ & K). rewrite str_value_blob by exact K.
    eexists. split; [reflexivity|]. intros _ _. constructor. cbn [List.concat]. now rewrite app_nil_r.
Qed.

Lemma vtree_root q v : container v -> root (vtree q v).
Proof. intros C. destruct v; try destruct C; exact I. Qed.

(** ** C01 *)

(** A list or map serialized to JSON, compact or pretty, and parsed back from memory or
    from a stream, is an equal Variant.  Missing for the full claim: strings with NUL,
    floats that are not doubles, and blobs with an empty buffer, see the refutations below;
    sizes beyond the emitter's 32-bit arithmetic. *)
Theorem C01_roundtrip_partial : forall (p : jparams) (v : value) (sched : list N),
  j_prec p = 17 -> container v -> vok v -> emittable p 0 v -> faithful v ->
  exists text F,
    (forall fuel, (F <= fuel)%nat -> document fuel p sched (emit_value v) = Ok (text, None)) /\
    forall i fuel, ready i -> unread i = text -> (List.length text + 4 < fuel)%nat ->
      exists v', outcome (parse_json fuel i) = Ok v' /\ same v v'.
Proof.
  intros p v sched Q C V K Fa.
  destruct (C05_delivered_text_partial p v sched (emittable_fits p v ltac:(lia) 0 V K)) as (F & HF).
  exists (vtext p 0 v), F. split; [exact HF|]. intros i fuel Hi E Hf.
  destruct (tval_vtree 17 p v 0 V K) as (v' & Ev & Sv). exists v'. split; [|apply Sv; auto].
  pose proof (vtext_lib p v) as J. rewrite Q in J.
  destruct (read_document _ _ _ J (vtree_root _ _ C) Ev) as (w & _ & R & _).
  rewrite outcome_flat by (rewrite ?E; assumption). rewrite E, R. reflexivity.
Qed.
Print Assumptions C01_roundtrip_partial.

(** The emitter's own settings satisfy the condition on the precision. *)
Theorem C01_roundtrip_default_partial : forall (v : value) (sched : list N),
  container v -> vok v -> emittable jdefault 0 v -> faithful v ->
  exists text F,
    (forall fuel, (F <= fuel)%nat -> document fuel jdefault sched (emit_value v) = Ok (text, None)) /\
    forall i fuel, ready i -> unread i = text -> (List.length text + 4 < fuel)%nat ->
      exists v', outcome (parse_json fuel i) = Ok v' /\ same v v'.
Proof. intros v sched. apply C01_roundtrip_partial. reflexivity. Qed.
Print Assumptions C01_roundtrip_default_partial.

(** C41 at the emitter's own precision. *)
Theorem C41_default_precision : forall x : spec_float,
  is_double x -> f_finite x = true -> strtod (print_g (Z.of_N (j_prec jdefault)) x) = x.
Proof. exact P_FloatText.C41_float_text_roundtrip. Qed.
Print Assumptions C41_default_precision.

(** ** C02 *)

(** Compact and pretty text are read as the same Variant; here also for values that JSON
    text cannot express exactly, and for every precision. *)
Theorem C02_pretty_same_partial : forall (strict : bool) (indent prec : N) (v : value) (sched : list N),
  let compact := JParams false strict 4 prec in
  let pretty := JParams true strict indent prec in
  prec < 2^31 -> container v -> vok v -> emittable compact 0 v -> emittable pretty 0 v ->
  exists text1 text2 v' F,
    (forall fuel, (F <= fuel)%nat -> document fuel compact sched (emit_value v) = Ok (text1, None)) /\
    (forall fuel, (F <= fuel)%nat -> document fuel pretty sched (emit_value v) = Ok (text2, None)) /\
    forall i fuel, ready i -> unread i = text1 \/ unread i = text2 -> (List.length (unread i) + 4 < fuel)%nat ->
      outcome (parse_json fuel i) = Ok v'.
Proof.
  intros strict indent prec v sched compact pretty Q C V K1 K2.
  destruct (C05_delivered_text_partial compact v sched (emittable_fits compact v Q 0 V K1)) as (F1 & HF1).
  destruct (C05_delivered_text_partial pretty v sched (emittable_fits pretty v Q 0 V K2)) as (F2 & HF2).
  destruct (tval_vtree (Z.of_N prec) compact v 0 V K1) as (v' & Ev & _).
  exists (vtext compact 0 v), (vtext pretty 0 v), v', (Nat.max F1 F2).
  split; [intros; apply HF1; lia|]. split; [intros; apply HF2; lia|]. intros i fuel Hi E Hf.
  assert (J : lib_json (unread i) (vtree (Z.of_N prec) v)).
  { destruct E as [->| ->]; [exact (vtext_lib compact v)|exact (vtext_lib pretty v)]. }
  destruct (read_document _ _ _ J (vtree_root _ _ C) Ev) as (w & _ & R & _).
  rewrite outcome_flat by assumption. rewrite R. reflexivity.
Qed.
Print Assumptions C02_pretty_same_partial.

(** ** C03 *)

(** What JSON can represent: text in UTF-8, and floats whose decimal text does not end in
    the decimal point. *)
Fixpoint representable (p : jparams) (v : value) : Prop :=
  match v with
  | VFlt x => ~ ends_with_point (flt_text p (d_of_ld x))
  | VStr s => valid_utf8 s
  | VList l => (fix go l := match l with [] => True | x :: t => representable p x /\ go t end) l
  | VMap m => (fix go m := match m with [] => True | kv :: t => (valid_utf8 (fst kv) /\ representable p (snd kv)) /\ go t end) m
  | _ => True
  end.

Lemma representable_leaves p v : 2 <= j_prec p -> representable p v -> leaves_ok utf8_plain (fun fp => fp <> []) true p v.
Proof.
  intros Q. induction v as [|b|z|n|x|s|l IH|m IH|b] using value_ind'; cbn [leaves_ok representable]; intros K; auto.
  - intros F. unfold flt_text in K.
    assert (E : (f_nan (d_of_ld x) || f_inf (d_of_ld x))%bool = false) by (destruct (d_of_ld x); try discriminate; reflexivity).
    rewrite E in K. apply flt_num; auto. right. intros X H. lia.
  - apply esc_utf8, c_str_utf8, K.
  - revert K. induction IH as [|x l Hx _ IHl]; [auto|]. intros [K1 K2]. split; [apply Hx, K1|apply IHl, K2].
  - revert K. induction IH as [|x l Hx _ IHl]; [auto|]. intros [[K1 K2] K3].
    split; [split; [apply esc_utf8, c_str_utf8, K1|apply Hx, K2]|apply IHl, K3].
Qed.

(** The text of every such list or map is a JSON text in the sense of RFC 8259.  Missing
    for the full claim: floats whose text ends in the decimal point (refuted below), sizes
    beyond the emitter's 32-bit arithmetic, blobs with an empty buffer. *)
Theorem C03_wellformed_partial : forall (p : jparams) (v : value) (sched : list N),
  2 <= j_prec p < 2^31 -> vok v -> emittable p 0 v -> representable p v ->
  exists text t F, rfc_json text t /\
    forall fuel, (F <= fuel)%nat -> document fuel p sched (emit_value v) = Ok (text, None).
Proof.
  intros p v sched Q V K R.
  destruct (C05_delivered_text_partial p v sched (emittable_fits p v ltac:(lia) 0 V K)) as (F & HF).
  exists (vtext p 0 v), (vtree (Z.of_N (j_prec p)) v), F. split; [|exact HF].
  exists [], (vtext p 0 v), []. rewrite app_nil_r. split; [reflexivity|]. split; [reflexivity|]. split; [|reflexivity].
  apply vtext_tree; [|apply representable_leaves; [lia|exact R]].
  intros c H1 H2 H3. exists (bval c). split; [left; lia|]. split; [lia|]. split; [exact H2|]. split; [exact H3|].
  unfold utf8. rewrite (proj2 (N.ltb_lt _ _)) by lia. now rewrite bchr_bval.
Qed.
Print Assumptions C03_wellformed_partial.

(** With no condition on the bytes of strings and on floats, the text still is JSON except
    for bytes that are not UTF-8 in strings and numbers that end in the decimal point. *)
Theorem C03_wellformed_bytes_partial : forall (p : jparams) (v : value) (sched : list N),
  j_prec p < 2^31 -> vok v -> emittable p 0 v ->
  exists text t F, jdoc wsp byte_plain (numg (fun _ => True) false) text t /\
    forall fuel, (F <= fuel)%nat -> document fuel p sched (emit_value v) = Ok (text, None).
Proof.
  intros p v sched Q V K.
  destruct (C05_delivered_text_partial p v sched (emittable_fits p v Q 0 V K)) as (F & HF).
  exists (vtext p 0 v), (vtree (Z.of_N (j_prec p)) v), F. split; [|exact HF]. apply vtext_lib.
Qed.
Print Assumptions C03_wellformed_bytes_partial.

(** ** Cases that meet the hypotheses *)

Definition round_params : jparams := JParams true false 3 17.
Definition round_value : value :=
  VMap [(s2b "a", VList [VInt (-12); VUns 7; VBool true; VStr [bchr 9; bchr 34; bchr 195; bchr 169]; VFlt (ld_of_d (S754_finite false 7205759403792794 (-56)))]);
        (s2b "b", VMap []); (s2b "c", VBlob [s2b "Ma"; s2b "n"])].

Example C01_case : container round_value /\ vok round_value /\ emittable round_params 0 round_value /\ faithful round_value /\
  outcome (parse_json 1000 (InMem (MInput (vtext round_params 0 round_value) 0))) =
    Ok (VMap [(s2b "a", VList [VInt (-12); VUns 7; VBool true; VStr [bchr 9; bchr 34; bchr 195; bchr 169];
                               VFlt (ld_of_d (S754_finite false 7205759403792794 (-56)))]);
              (s2b "b", VMap []); (s2b "c", VBlob [s2b "Man"])]).
Proof.
  split; [exact I|]. split.
  { cbn [vok round_value msorted]. repeat split; try lia; cbn; intuition (subst; reflexivity). }
  split.
  { cbn [emittable round_value round_params j_indent j_strict]. repeat split; try discriminate; try reflexivity.
    repeat constructor; discriminate. }
  split; [|vm_compute; reflexivity].
  cbn [faithful round_value fst snd]. repeat split; try (intros K; revert K; vm_compute; intuition discriminate).
  eexists. split; [|split; [|reflexivity]]; reflexivity.
Qed.

Example C02_case : emittable (JParams false false 4 17) 0 round_value /\ emittable (JParams true false 3 17) 0 round_value /\
  vtext (JParams false false 4 17) 0 round_value <> vtext (JParams true false 3 17) 0 round_value.
Proof.
  split; [|split; [|vm_compute; discriminate]]; cbn [emittable round_value j_indent j_strict]; repeat split; try discriminate;
    try reflexivity; repeat constructor; discriminate.
Qed.

Example C03_case : representable round_params round_value /\
  vtext (JParams false false 4 17) 0 round_value =
    s2b "{""a"": [-12,7,true,""\t\""" ++ [bchr 195; bchr 169] ++ s2b """,0.10000000000000001],""b"": {},""c"": ""\u0000BLOBTWFu""}".
Proof.
  split; [|vm_compute; reflexivity].
  assert (A : forall k, k < 128 -> valid_utf8 [bchr k]).
  { intros k H. exists [k]. split; [constructor; [left; lia|constructor]|]. cbn [flat_map]. unfold utf8.
    rewrite (proj2 (N.ltb_lt _ _)) by exact H. reflexivity. }
  cbn [representable round_value fst snd]. repeat split; try (apply (A 97); reflexivity); try (apply (A 98); reflexivity); try (apply (A 99); reflexivity).
  - exists [9; 34; 233]. split; [|reflexivity]. repeat (constructor; [left; reflexivity|]). constructor.
  - intros (u & E). apply (f_equal (@rev ascii)) in E. rewrite rev_app_distr in E. vm_compute in E. discriminate.
Qed.

(** ** Refutations *)

(** A string with NUL comes back cut short. *)
Theorem C01_nul_refuted : exists v v', container v /\ vok v /\ emittable jdefault 0 v /\
  document 600 jdefault [] (emit_value v) = Ok (vtext jdefault 0 v, None) /\
  outcome (parse_json 100 (InMem (MInput (vtext jdefault 0 v) 0))) = Ok v' /\ ~ same v v'.
Proof.
  exists (VList [VStr [ "a"; bchr 0; "b"]%char]), (VList [VStr [ "a"%char]]).
  split; [exact I|]. split; [repeat split|]. split; [repeat split; reflexivity|].
  split; [vm_compute; reflexivity|]. split; [vm_compute; reflexivity|].
  intros H. inversion H as [| | | | | |l l' F|]; subst; [discriminate|]. inversion F as [|? ? ? ? S _]; subst.
  inversion S; subst. discriminate.
Qed.
Print Assumptions C01_nul_refuted.

(** A long double with more than 53 significant bits comes back rounded (1 + 2^-60 as 1),
    and one beyond the range of double as null. *)
Theorem C01_long_double_refuted : exists v v', container v /\ vok v /\ emittable jdefault 0 v /\
  document 600 jdefault [] (emit_value v) = Ok (vtext jdefault 0 v, None) /\
  outcome (parse_json 100 (InMem (MInput (vtext jdefault 0 v) 0))) = Ok v' /\ ~ same v v'.
Proof.
  exists (VList [VFlt (S754_finite false 9223372036854775816 (-63))]), (VList [VFlt (S754_finite false 9223372036854775808 (-63))]).
  split; [exact I|]. split; [repeat split|]. split; [repeat split; discriminate|].
  split; [vm_compute; reflexivity|]. split; [vm_compute; reflexivity|].
  intros H. inversion H as [| | | | | |l l' F|]; subst; [discriminate|]. inversion F as [|? ? ? ? S _]; subst.
  inversion S; subst. discriminate.
Qed.
Print Assumptions C01_long_double_refuted.

Theorem C01_large_float_refuted : exists v, container v /\ vok v /\ emittable jdefault 0 v /\
  (exists x, v = VList [VFlt x] /\ f_finite x = true) /\
  document 600 jdefault [] (emit_value v) = Ok (vtext jdefault 0 v, None) /\
  outcome (parse_json 100 (InMem (MInput (vtext jdefault 0 v) 0))) = Ok (VList [VNull]).
Proof.
  exists (VList [VFlt (S754_finite false 9223372036854775808 1000)]).
  split; [exact I|]. split; [repeat split|]. split; [repeat split; discriminate|]. split; [eexists; split; reflexivity|].
  split; vm_compute; reflexivity.
Qed.
Print Assumptions C01_large_float_refuted.

(** The double 12345678901234568 is written as "12345678901234568.", which RFC 8259 does
    not allow. *)
Fixpoint points_ok (t : bytes) : bool :=
  match t with
  | [] => true
  | c :: r => (if aeqb c "." then match r with d :: _ => is_digit d | [] => false end else true) && points_ok r
  end.
Lemma points_app a b : points_ok a = true -> points_ok b = true -> points_ok (a ++ b) = true.
Proof.
  induction a as [|c a IH]; cbn [app points_ok]; [auto|]. intros H K. apply andb_true_iff in H as [H1 H2].
  rewrite (IH H2 K), andb_true_r. destruct (aeqb c "."); [|reflexivity]. destruct a; [discriminate|exact H1].
Qed.
Definition qp (t : bytes) : Prop := In (bchr 34) t \/ points_ok t = true.
Lemma qp_app a b : qp a -> qp b -> qp (a ++ b).
Proof. unfold qp. rewrite in_app_iff. intros [H|H] [K|K]; auto. right. apply points_app; assumption. Qed.
Lemma points_none t : forallb (fun c => negb (aeqb c ".")) t = true -> points_ok t = true.
Proof.
  induction t as [|c t IH]; cbn [forallb points_ok]; [auto|]. intros H. apply andb_true_iff in H as [H1 H2].
  rewrite (IH H2). destruct (aeqb c "."); [discriminate|reflexivity].
Qed.
Lemma qp_cons c t : aeqb c "." = false -> qp t -> qp (c :: t).
Proof. intros E K. change (c :: t) with ([c] ++ t). apply qp_app; [|exact K]. right. cbn [points_ok]. rewrite E. reflexivity. Qed.
Lemma qp_ws w : wsp w -> qp w.
Proof.
  intros H. right. apply points_none. rewrite forallb_forall. unfold wsp in H. rewrite forallb_forall in H.
  intros c K. specialize (H c K). destruct (aeqb c ".") eqn:E; [|reflexivity]. apply aeqb_eq in E. subst c. discriminate.
Qed.
Lemma qp_digits ds : digits ds -> qp ds.
Proof.
  intros H. right. apply points_none. rewrite forallb_forall. unfold digits in H. rewrite forallb_forall in H.
  intros c K. specialize (H c K). destruct (aeqb c ".") eqn:E; [|reflexivity]. apply aeqb_eq in E. subst c. discriminate.
Qed.
Lemma qp_num t n : rfc_num t n -> qp t.
Proof.
  intros H. assert (Qi : forall ip, int_part ip -> qp ip).
  { intros ip [->|(c & ds & -> & Hc & _ & Hd)]; [right; reflexivity|]. apply qp_digits. unfold digits. cbn [forallb]. rewrite Hc. exact Hd. }
  assert (Qm : forall neg, qp (minus neg)) by (intros []; right; reflexivity).
  assert (Qe : forall e sg ds, exp_part e sg ds -> qp (e :: sg ++ ds)).
  { intros e sg ds (He & Hs & Hd & _). apply qp_cons; [destruct He; subst; reflexivity|]. apply qp_app; [|apply qp_digits, Hd].
    right. destruct Hs as [->|[->| ->]]; reflexivity. }
  assert (Qf : forall fp r, digits fp -> fp <> [] -> qp r -> qp ("."%char :: fp ++ r)).
  { intros fp r Hd Ne Hr. change ("."%char :: fp ++ r) with (("."%char :: fp) ++ r). apply qp_app; [|exact Hr].
    right. cbn [points_ok aeqb]. destruct fp as [|c fp]; [congruence|]. change (aeqb "." ".") with true. cbv iota.
    pose proof (qp_digits _ Hd) as [K|K].
    - exfalso. unfold digits in Hd. rewrite forallb_forall in Hd. specialize (Hd _ K). discriminate.
    - rewrite K, andb_true_r. unfold digits in Hd. cbn [forallb] in Hd. apply andb_true_iff in Hd as [Hd _]. exact Hd. }
  inversion H; subst; repeat (apply qp_app); auto.
  rewrite <- (app_nil_r fp). apply Qf; auto. right. reflexivity.
Qed.
Lemma qp_jval : (forall t v, jval wsp utf8_plain rfc_num t v -> qp t) /\
  (forall t v, jelems wsp utf8_plain rfc_num t v -> qp t) /\ (forall t v, jmembers wsp utf8_plain rfc_num t v -> qp t).
Proof.
  apply (jval_all wsp utf8_plain rfc_num (fun t v _ => qp t) (fun t v _ => qp t) (fun t v _ => qp t)); intros;
    try (right; reflexivity);
    try (eapply qp_num; eassumption);
    try (left; left; reflexivity);
    try (left; unfold quoted; rewrite !in_app_iff; cbn [In]; tauto);
    try (apply qp_cons; [reflexivity|]; apply qp_app; [auto using qp_ws|right; reflexivity]);
    repeat (apply qp_app; [solve [auto using qp_ws]|]); auto using qp_ws.
  apply qp_cons; [reflexivity|assumption].
Qed.

Theorem C03_final_point_refuted : exists v, container v /\ vok v /\ emittable jdefault 0 v /\
  document 600 jdefault [] (emit_value v) = Ok (s2b "[12345678901234568.]", None) /\
  forall t, ~ rfc_json (s2b "[12345678901234568.]") t.
Proof.
  exists (VList [VFlt (ld_of_d (S754_finite false 6172839450617284 1))]).
  split; [exact I|]. split; [repeat split; vm_compute; reflexivity|]. split; [repeat split; discriminate|].
  split; [vm_compute; reflexivity|]. intros t (w1 & x & w2 & E & W1 & J & W2).
  assert (Q : qp (s2b "[12345678901234568.]")).
  { rewrite E. apply qp_app; [apply qp_ws, W1|]. apply qp_app; [|apply qp_ws, W2]. eapply (proj1 qp_jval), J. }
  destruct Q as [K|K]; [|discriminate]. revert K. vm_compute. intuition discriminate.
Qed.
Print Assumptions C03_final_point_refuted.
