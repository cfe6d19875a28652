(** C50: what the YAML emitter gives to libyaml, the YAML parser reads back as the same Variant. *)
From Verif Require Import Base CNum Float FloatText FloatTextProofs Value Convert Emit Builder Base64 Base64Spec Base64Proofs GuessScalar P_GuessScalar Bundle P_Bundle
  P_Base64 ParserInput JsonMeaning P_JSONRound LoadAll LoadAllProofs YAMLSem P_LoadAll YAMLEmit.
Open Scope N_scope.

(** ** What is assumed of libyaml *)
(** Texts that libyaml can write without quotes anywhere: letters, digits, point and signs, with a letter or a digit. *)
Definition letter (c : ascii) : bool := (is_digit c || (97 <=? bval c) && (bval c <=? 122) || (65 <=? bval c) && (bval c <=? 90))%bool.
Definition bare (s : bytes) : Prop :=
  forallb (fun c => letter c || aeqb c "." || aeqb c "+" || aeqb c "-")%bool s = true /\ existsb letter s = true /\ firstn 3 s <> s2b "---" /\ firstn 3 s <> s2b "...".
(** libyaml's parser reports the events that its emitter was given.  It may choose quotes for any scalar except for those
    that are asked for as plain and can be; a quoted scalar is reported as quoted.  errno ([stale]) may be anything. *)
Inductive brought : yout -> yev -> Prop :=
| br_stream : brought OStreamStart YStreamStart
| br_end : brought OStreamEnd YStreamEnd
| br_doc : brought ODocStart YDocStart
| br_doc_end : brought ODocEnd YDocEnd
| br_seq : brought OSeqStart (YSeqStart None)
| br_seq_end : brought OSeqEnd YSeqEnd
| br_map : brought OMapStart (YMapStart None)
| br_map_end : brought OMapEnd YMapEnd
| br_any s plain stale : brought (OScalar None StAny s) (YScalar None None plain stale s)
| br_plain s plain stale : (bare s -> plain = true) -> brought (OScalar None StPlain s) (YScalar None None plain stale s)
| br_tag t style s plain stale : brought (OScalar (Some t) style s) (YScalar None (Some t) plain stale s).

(** ** What can be written *)
(** Texts that are not the spelling of null, a boolean or a number (P_GuessScalar.v), do not contain NUL, and that libyaml accepts. *)
Definition legible_text (text_ok : bytes -> bool) (s : bytes) : Prop := no_nul s /\ text_ok s = true /\ ~ means_scalar s.
(** Keys may also be integers as they are printed. *)
Definition legible_key (text_ok : bytes -> bool) (k : bytes) : Prop :=
  legible_text text_ok k \/ exists z, (- 2^63 <= z < 2^64)%Z /\ k = dec_of_Z z.
Fixpoint legible (text_ok : bytes -> bool) (v : value) : Prop :=
  match v with
  | VNull | VBool _ | VInt _ | VUns _ => True
  | VFlt x => exists y, is_double y /\ x = ld_of_d y
  | VStr s => legible_text text_ok s
  | VBlob b => Forall (fun x => x <> []) b /\ llen (List.concat b) < 1000000000
  | VList l => (fix go l := match l with [] => True | x :: t => legible text_ok x /\ go t end) l
  | VMap m => (fix go m := match m with [] => True | kv :: t => (legible_key text_ok (fst kv) /\ legible text_ok (snd kv)) /\ go t end) m
  end.
(** libyaml accepts ASCII. *)
Definition takes_ascii (text_ok : bytes -> bool) : Prop := forall s, forallb (fun c => bval c <? 128) s = true -> text_ok s = true.

(** ** The events *)
Fixpoint youts (prec : N) (v : value) : list yout :=
  match v with
  | VNull => [OScalar None StPlain (s2b "null")]
  | VBool b => [OScalar None StPlain (if b then s2b "true" else s2b "false")]
  | VInt z => [OScalar None StPlain (dec_of_Z z)]
  | VUns n => [OScalar None StPlain (dec_of_N n)]
  | VFlt x => [OScalar None StPlain (yaml_double prec (d_of_ld x))]
  | VStr s => [OScalar None StAny (c_str s)]
  | VBlob b => [OScalar (Some yaml_binary) StAny (rfc4648 (List.concat b))]
  | VList l => OSeqStart :: flat_map (youts prec) l ++ [OSeqEnd]
  | VMap m => OMapStart :: flat_map (fun kv => OScalar None StAny (c_str (fst kv)) :: youts prec (snd kv)) m ++ [OMapEnd]
  end.

(** *** Texts of numbers are bare *)
Lemma fch_letter c : fch c = true -> (letter c || aeqb c "." || aeqb c "+" || aeqb c "-")%bool = true.
Proof.
  assert (S : forallb (fun c => implb (fch c) (letter c || aeqb c "." || aeqb c "+" || aeqb c "-")) all_bytes = true) by (vm_compute; reflexivity).
  pose proof (sweep _ S c) as T. cbv beta in T. intros F. rewrite F in T. exact T.
Qed.
Lemma bare_fch a d r : forallb fch (a ++ d :: r) = true -> is_digit d = true -> (List.length a <= 2)%nat -> bare (a ++ d :: r).
Proof.
  intros F D L. split; [|split; [|split]].
  - rewrite forallb_forall in *. intros c I. apply fch_letter, F, I.
  - apply existsb_exists. exists d. split; [apply in_or_app; right; left; reflexivity|]. unfold letter. rewrite D. reflexivity.
  - intros E. assert (I : In d (firstn 3 (a ++ d :: r))). { destruct a as [|x [|y [|z a]]]; cbn in *; auto; lia. }
    rewrite E in I. cbn in I. repeat (destruct I as [<-|I]; [discriminate D|]). destruct I.
  - intros E. assert (I : In d (firstn 3 (a ++ d :: r))). { destruct a as [|x [|y [|z a]]]; cbn in *; auto; lia. }
    rewrite E in I. cbn in I. repeat (destruct I as [<-|I]; [discriminate D|]). destruct I.
Qed.
Lemma sign_short sg : In sg signs -> (List.length sg <= 1)%nat.
Proof. cbn. intros [<-|[<-|[<-|[]]]]; cbn; lia. Qed.
Lemma digits_cons ds : digits ds -> ds <> [] -> exists d r, ds = d :: r /\ is_digit d = true.
Proof. intros D N. destruct ds as [|d r]; [contradiction|]. apply digits_b in D. cbn in D. apply andb_true_iff in D. exists d, r. tauto. Qed.
Lemma bare_int z : bare (dec_of_Z z).
Proof.
  destruct (int_spelled z) as (sg & ds & E & S & D & N & V). rewrite E. assert (F := nch_fch _ (int_nch _ _ S D)). apply sign_short in S.
  destruct (digits_cons ds D N) as (d & r & -> & Hd). apply bare_fch; auto.
Qed.
Lemma bare_float d : f_finite d = true -> bare (print_g 17 d).
Proof.
  intros F. destruct (float_spelled d F) as (sg & ip & fp & ex & S). destruct (float_fch _ _ _ _ _ S) as [F1 _]. remember (print_g 17 d) as s eqn:E. clear E F.
  inversion S as [| | | | | |? ? ? ? t S1 S2 S3 S4 S5|? ? ? t S1 S2 S3 S5| | |]; subst; apply sign_short in S1.
  - destruct ip as [|c ip].
    + destruct (digits_cons fp S3 S4) as (x & r & -> & Hx). cbn [app] in *. change (s2b "." ++ x :: r ++ t) with (s2b "." ++ x :: (r ++ t)) in *.
      rewrite (app_assoc sg (s2b ".") (x :: r ++ t)) in *. apply bare_fch; auto. rewrite app_length. cbn. lia.
    + destruct (digits_cons (c :: ip) S2 ltac:(discriminate)) as (x & r & [= <- <-] & Hx). cbn [app] in *. apply bare_fch; auto.
  - destruct (digits_cons ip S2 S3) as (x & r & -> & Hx). cbn [app] in *. apply bare_fch; auto.
Qed.
Lemma bare_ascii s : bare s -> forallb (fun c => bval c <? 128) s = true.
Proof.
  intros [F _]. rewrite forallb_forall in *. intros c I. apply F in I.
  assert (S : forallb (fun c => implb (letter c || aeqb c "." || aeqb c "+" || aeqb c "-") (bval c <? 128)) all_bytes = true) by (vm_compute; reflexivity).
  pose proof (sweep _ S c) as T. cbv beta in T. rewrite I in T. exact T.
Qed.
Lemma bare_double d : bare (yaml_double 17 d).
Proof.
  unfold yaml_double. destruct d as [s|s| |s m e]; cbn [f_nan f_inf].
  - apply bare_float. reflexivity.
  - destruct s; split; [reflexivity|split; [reflexivity|split; discriminate]|reflexivity|split; [reflexivity|split; discriminate]].
  - split; [reflexivity|split; [reflexivity|split; discriminate]].
  - apply bare_float. reflexivity.
Qed.
Lemma back_double stale d : is_double d -> guess_value (guess_scalar stale (yaml_double 17 d)) = VFlt (ld_of_d d).
Proof.
  intros D. unfold yaml_double. destruct d as [s|s| |s m e]; cbn [f_nan f_inf].
  - destruct (float_spelled (S754_zero s) eq_refl) as (sg & ip & fp & ex & S). change (Z.of_N 17) with 17%Z. rewrite (guess_float stale _ _ _ _ _ S), strtod_print by auto. reflexivity.
  - destruct s; destruct stale; vm_compute; reflexivity.
  - destruct stale; vm_compute; reflexivity.
  - destruct (float_spelled (S754_finite s m e) eq_refl) as (sg & ip & fp & ex & S). change (Z.of_N 17) with 17%Z. rewrite (guess_float stale _ _ _ _ _ S), strtod_print by auto. reflexivity.
Qed.
Lemma whole_same z v : whole z v -> int_val v = Some z.
Proof. intros [[H ->]|[H ->]]; cbn; f_equal; lia. Qed.
Lemma whole_text z v : whole z v -> as_string v = Ok (dec_of_Z z).
Proof. intros [[H ->]|[H ->]]; cbn [as_string]; [reflexivity|]. rewrite <- dec_of_Z_of_N. do 2 f_equal. lia. Qed.
Lemma no_nul_bytes s : no_nul s -> Forall (fun c => bval c <> 0) s.
Proof. intros N. apply Forall_forall. intros c I E. apply N. assert (c = bchr 0) as <-; [|exact I].
  pose proof (sweep (fun c => implb (bval c =? 0) (aeqb c (bchr 0))) ltac:(vm_compute; reflexivity) c) as T. cbv beta in T. rewrite E in T. apply aeqb_eq in T. exact T. Qed.

(** *** Writing *)
Section Write.
Context (text_ok : bytes -> bool) (Asc : takes_ascii text_ok).
Definition into (st : yemit) (os : list yout) : yemit := YEmit (ye_out (ye_begin_doc st) ++ os) true.
Lemma scalar_into style s st : text_ok s = true -> ye_scalar text_ok style s st = Ok (into st [OScalar None style s]).
Proof. intros T. unfold ye_scalar. rewrite T. unfold into, ye_begin_doc, ye_give. destruct st as [o []]; reflexivity. Qed.
Lemma into_into st a b : into (into st a) b = into st (a ++ b).
Proof. unfold into at 1. unfold ye_begin_doc at 1. cbn [into ye_in ye_out]. unfold into. rewrite app_assoc. reflexivity. Qed.
Lemma calls_app a b st st' : ye_calls text_ok 17 a st = Ok st' -> ye_calls text_ok 17 (a ++ b) st = ye_calls text_ok 17 b st'.
Proof. revert st; induction a as [|e a IH]; intros st; cbn [app ye_calls]; [intros [= ->]; reflexivity|]. destruct (ye_call text_ok 17 e st) as [s| | | |]; cbn [rbind]; try discriminate. apply IH. Qed.
Lemma blob_into b st : Forall (fun x => x <> []) b -> llen (List.concat b) < 1000000000 ->
  ye_call text_ok 17 (EvBlob b) st = Ok (into st [OScalar (Some yaml_binary) StAny (rfc4648 (List.concat b))]).
Proof.
  intros F L. cbn [ye_call]. destruct (C08_encode_size_sufficient_partial b 0 F ltac:(lia)) as (t & E & _); [unfold llen in L; lia|].
  destruct (C07_base64_rfc4648_partial b F) as (n & E'). rewrite E in E'. injection E' as -> <-. rewrite E. cbn [rbind].
  assert (S := encode_text_length 72 (List.concat b) ltac:(lia) ltac:(unfold llen in L; lia)).
  assert (T : llen (rfc4648 (List.concat b)) + 1 <= base64_encode_size (wrap32 (llen (List.concat b))) 72).
  { destruct S as [S1 S2]. assert (X : llen (rfc4648 (List.concat b)) <= llen (enc_list 72 0 (List.concat b))).
    { rewrite <- (enc_list_strip 72 (List.concat b) 0). unfold llen. assert (Y : forall s, (List.length (strip_nl s) <= List.length s)%nat); [|specialize (Y (enc_list 72 0 (List.concat b))); lia].
      intros s. unfold strip_nl. clear. induction s as [|c s IH]; cbn [filter List.length]; [lia|]. destruct (negb _); cbn [List.length]; lia. }
    rewrite app_length in S1. unfold llen in *. unfold wrap32 at 1. rewrite N.mod_small by lia. lia. }
  replace (base64_encode_size _ _ <? _) with false by (symmetry; apply N.ltb_ge; exact T). unfold take. rewrite Nat2N.id, firstn_all. unfold into, ye_give, ye_begin_doc. destruct st as [o []]; reflexivity.
Qed.

Lemma key_text k : legible_key text_ok k -> text_ok (c_str k) = true /\ c_str k = k.
Proof.
  intros [(N & T & _)|(z & _ & ->)]; [rewrite c_str_id by exact N; auto|]. assert (A := bare_ascii _ (bare_int z)).
  rewrite c_str_id; [auto|]. intros I. destruct (bare_int z) as [F _]. rewrite forallb_forall in F. apply F in I. discriminate I.
Qed.
Lemma one_call e st os : ye_call text_ok 17 e st = Ok (into st os) -> ye_calls text_ok 17 [e] st = Ok (into st os).
Proof. intros H. cbn [ye_calls]. rewrite H. reflexivity. Qed.
Lemma write_ok v : legible text_ok v -> forall st, ye_calls text_ok 17 (emit_value v) st = Ok (into st (youts 17 v)).
Proof.
  induction v as [|b|z|n|x|s|l IH|m IH|b] using value_ind'; intros L st; cbn [emit_value youts].
  - apply one_call. apply scalar_into, Asc. reflexivity.
  - apply one_call. destruct b; apply scalar_into, Asc; reflexivity.
  - apply one_call. apply scalar_into, Asc, bare_ascii, bare_int.
  - apply one_call. rewrite <- dec_of_Z_of_N. cbn [ye_call]. rewrite <- dec_of_Z_of_N. apply scalar_into, Asc, bare_ascii, bare_int.
  - apply one_call. apply scalar_into, Asc, bare_ascii, bare_double.
  - apply one_call. destruct L as (N & T & _). rewrite c_str_id by exact N. apply scalar_into, T.
  - cbn [ye_calls ye_call rbind]. change (ye_give OSeqStart (ye_begin_doc st)) with (YEmit (ye_out (ye_begin_doc st) ++ [OSeqStart]) (ye_in (ye_begin_doc st))).
    replace (YEmit (ye_out (ye_begin_doc st) ++ [OSeqStart]) (ye_in (ye_begin_doc st))) with (into st [OSeqStart]) by (unfold into, ye_begin_doc; destruct st as [o []]; reflexivity).
    assert (X : forall st, ye_calls text_ok 17 (flat_map emit_value l) (into st []) = Ok (into st (flat_map (youts 17) l))).
    { clear st. induction l as [|x l IHl]; intros st; [reflexivity|]. cbn [flat_map]. destruct L as [Lx L]. inversion IH as [|? ? Hx IH']; subst.
      rewrite (calls_app _ _ _ _ (Hx Lx _)), into_into. cbn [app]. rewrite <- (app_nil_r (youts 17 x)) at 1. rewrite <- into_into. rewrite IHl by auto. rewrite into_into. reflexivity. }
    specialize (X (into st [OSeqStart])). rewrite into_into, app_nil_r in X. rewrite (calls_app _ _ _ _ X). cbn [ye_calls ye_call rbind]. rewrite into_into.
    unfold ye_give, ye_begin_doc. cbn [into ye_in ye_out]. unfold into. cbn [ye_out ye_in]. rewrite <- app_assoc. reflexivity.
  - cbn [ye_calls ye_call rbind]. change (ye_give OMapStart (ye_begin_doc st)) with (YEmit (ye_out (ye_begin_doc st) ++ [OMapStart]) (ye_in (ye_begin_doc st))).
    replace (YEmit (ye_out (ye_begin_doc st) ++ [OMapStart]) (ye_in (ye_begin_doc st))) with (into st [OMapStart]) by (unfold into, ye_begin_doc; destruct st as [o []]; reflexivity).
    assert (X : forall st, ye_calls text_ok 17 (flat_map (fun kv => EvStr (c_str (fst kv)) :: emit_value (snd kv)) m) (into st []) =
      Ok (into st (flat_map (fun kv => OScalar None StAny (c_str (fst kv)) :: youts 17 (snd kv)) m))).
    { clear st. induction m as [|[k x] m IHm]; intros st; [reflexivity|]. cbn [flat_map fst snd]. destruct L as [[Lk Lx] L]. inversion IH as [|? ? Hx IH']; subst. cbn [snd fst] in *.
      destruct (key_text k Lk) as [Tk _]. cbn [app ye_calls ye_call]. rewrite scalar_into by exact Tk. cbn [rbind]. rewrite into_into. cbn [app].
      rewrite (calls_app _ _ _ _ (Hx Lx _)), into_into. rewrite <- (app_nil_r (_ ++ youts 17 x)). rewrite <- into_into. rewrite IHm by auto. rewrite into_into, <- app_assoc. reflexivity. }
    specialize (X (into st [OMapStart])). rewrite into_into, app_nil_r in X. rewrite (calls_app _ _ _ _ X). cbn [ye_calls ye_call rbind]. rewrite into_into.
    unfold ye_give, ye_begin_doc. cbn [into ye_in ye_out]. unfold into. cbn [ye_out ye_in]. rewrite <- app_assoc. reflexivity.
  - apply one_call. destruct L as [F S]. apply blob_into; auto.
Qed.

(** *** Reading *)
Definition no_anchor (t : ynode) : Prop := anchors t = [] /\ keys_free t.
Lemma brought_scalar style s ev : brought (OScalar None style s) ev -> exists plain stale, ev = YScalar None None plain stale s /\ (style = StPlain -> bare s -> plain = true).
Proof. intros H. inversion H; subst; eexists _, _; (split; [reflexivity|]); intros E; [discriminate|auto]. Qed.
Lemma split_brought a b evs : Forall2 brought (a ++ b) evs -> exists e1 e2, evs = e1 ++ e2 /\ Forall2 brought a e1 /\ Forall2 brought b e2.
Proof. intros H. apply Forall2_app_inv_l in H. destruct H as (e1 & e2 & H1 & H2 & ->). eauto. Qed.
Lemma read_plain s v : bare s -> (forall stale, same v (guess_value (guess_scalar stale s))) -> forall evs, Forall2 brought [OScalar None StPlain s] evs ->
  exists t v', evs = events t /\ no_anchor t /\ (forall e, means e t v' e) /\ same v v'.
Proof.
  intros B G evs H. inversion H as [|? ev ? ? H1 H2]; subst. inversion H2; subst. destruct (brought_scalar _ _ _ H1) as (plain & stale & -> & P). rewrite (P eq_refl B).
  exists (NScalar None None true stale s), (guess_value (guess_scalar stale s)). split; [reflexivity|]. split; [split; [reflexivity|exact Logic.I]|]. split; [|apply G].
  intros e. apply (MScalar e None None true stale s). reflexivity.
Qed.
Lemma read_text s : legible_text text_ok s -> forall ev, brought (OScalar None StAny (c_str s)) ev ->
  exists plain stale, ev = YScalar None None plain stale s /\ forall e, means e (NScalar None None plain stale s) (VStr s) e.
Proof.
  intros (N & _ & M) ev H. rewrite c_str_id in H by exact N. destruct (brought_scalar _ _ _ H) as (plain & stale & -> & _). exists plain, stale. split; [reflexivity|].
  intros e. apply (MScalar e None None plain stale s). cbn [scalar_means]. destruct plain; [|reflexivity]. rewrite guess_string; [reflexivity|apply no_nul_bytes, N|exact M].
Qed.
Lemma read_key k : legible_key text_ok k -> forall ev, brought (OScalar None StAny (c_str k)) ev ->
  exists plain stale kv, ev = YScalar None None plain stale k /\ as_string kv = Ok k /\ forall e, means e (NScalar None None plain stale k) kv e.
Proof.
  intros K ev H. destruct (key_text k K) as [_ Ek]. destruct K as [K|(z & R & Ez)].
  - destruct (read_text k K ev H) as (plain & stale & E & M). exists plain, stale, (VStr k). auto.
  - rewrite Ek in H. destruct (brought_scalar _ _ _ H) as (plain & stale & -> & _). subst k. destruct plain.
    + exists true, stale, (guess_value (guess_scalar stale (dec_of_Z z))). split; [reflexivity|]. split; [apply whole_text, guess_int, R|].
      intros e. apply (MScalar e None None true stale). reflexivity.
    + exists false, stale, (VStr (dec_of_Z z)). split; [reflexivity|]. split; [reflexivity|]. intros e. apply (MScalar e None None false stale). reflexivity.
Qed.
Lemma of_pairs_sorted ps : msorted ps -> of_pairs ps = ps.
Proof.
  intros S. unfold of_pairs. assert (X : forall ps acc, msorted (acc ++ ps) -> fold_left (fun (m : list (bytes * value)) p => mset (fst p) (snd p) m) ps acc = acc ++ ps); [|apply (X ps [] S)].
  clear. induction ps as [|[k v] ps IH]; intros acc S; cbn [fold_left]; [rewrite app_nil_r; reflexivity|]. cbn [fst snd].
  assert (L : forall k', In k' (mkeys acc) -> bcmp k' k = Lt).
  { clear IH. induction acc as [|[a w] acc IH]; [intros k' []|]. cbn [app msorted] in S. destruct S as [S1 S2]. cbn [mkeys List.map fst]. intros k' [<-|I]; [|apply IH; auto].
    apply S1. unfold mkeys. rewrite map_app. apply in_or_app. right. left. reflexivity. }
  rewrite mset_last by exact L. rewrite IH; rewrite <- app_assoc; [reflexivity|exact S].
Qed.
Lemma sorted_nodup {A} (m : list (bytes * A)) : msorted m -> NoDup (List.map fst m).
Proof.
  induction m as [|[k v] m IH]; [constructor|]. cbn [msorted List.map fst]. intros [S1 S2]. constructor; [|apply IH, S2].
  intros I. assert (E := S1 k I). rewrite (proj2 (bcmp_eq k k) eq_refl) in E. discriminate.
Qed.
Lemma sorted_keys {A B} (m : list (bytes * A)) (m' : list (bytes * B)) : List.map fst m = List.map fst m' -> msorted m -> msorted m'.
Proof.
  revert m'; induction m as [|[k v] m IH]; intros [|[k' v'] m']; cbn; try discriminate; auto. intros [= -> E] [S1 S2]. split; [|apply IH; auto].
  unfold mkeys in *. rewrite <- E. exact S1.
Qed.

Lemma read_ok v : vok v -> legible text_ok v -> forall evs, Forall2 brought (youts 17 v) evs ->
  exists t v', evs = events t /\ no_anchor t /\ (forall e, means e t v' e) /\ same v v'.
Proof.
  induction v as [|b|z|n|x|s|l IH|m IH|b] using value_ind'; intros V L evs H; cbn [youts] in H.
  - revert evs H. apply read_plain; [split; [reflexivity|split; [reflexivity|split; discriminate]]|]. intros []; vm_compute; constructor.
  - revert evs H. destruct b; (apply read_plain; [split; [reflexivity|split; [reflexivity|split; discriminate]]|]; intros []; vm_compute; constructor).
  - revert evs H. apply read_plain; [apply bare_int|]. intros stale. cbn in V. eapply SInt; [reflexivity|]. apply whole_same, guess_int. lia.
  - revert evs H. rewrite <- dec_of_Z_of_N. apply read_plain; [apply bare_int|]. intros stale. cbn in V. eapply SInt; [reflexivity|]. apply whole_same, guess_int. lia.
  - revert evs H. destruct L as (y & Dy & ->). rewrite FloatProofs.d_of_ld_of_d by exact Dy. apply read_plain; [apply bare_double|]. intros stale. rewrite back_double by exact Dy. constructor.
  - inversion H as [|? ev ? ? H1 H2]; subst. inversion H2; subst. destruct (read_text s L ev H1) as (plain & stale & -> & M).
    exists (NScalar None None plain stale s), (VStr s). split; [reflexivity|]. split; [split; [reflexivity|exact Logic.I]|]. split; [exact M|constructor].
  - inversion H as [|? ev ? evs' H1 H2]; subst. inversion H1; subst. destruct (split_brought _ _ _ H2) as (e1 & e2 & -> & B1 & B2).
    inversion B2 as [|? ev ? ? B3 B4]; subst. inversion B3; subst. inversion B4; subst.
    assert (X : exists ts vs, e1 = List.concat (List.map events ts) /\ List.concat (List.map anchors ts) = [] /\ keys_free (NSeq None ts) /\ (forall e, means_list e ts vs e) /\ Forall2 same l vs).
    { clear H H1 H2 B2 B3 B4. revert e1 B1. induction l as [|x l IHl]; intros e1 B1.
      - inversion B1; subst. exists [], []. repeat split; constructor.
      - cbn [flat_map] in B1. destruct (split_brought _ _ _ B1) as (f1 & f2 & -> & C1 & C2). inversion IH as [|? ? Hx IH']; subst. destruct V as [Vx V], L as [Lx L].
        destruct (Hx Vx Lx f1 C1) as (t & v' & -> & (A1 & A2) & M & S). destruct (IHl IH' V L f2 C2) as (ts & vs & -> & As & Ks & Ms & Ss).
        exists (t :: ts), (v' :: vs). split; [reflexivity|]. split; [cbn [List.map List.concat]; rewrite A1, As; reflexivity|]. split; [split; assumption|]. split; [intros e; econstructor; auto|constructor; auto]. }
    destruct X as (ts & vs & -> & As & Ks & Ms & Ss). exists (NSeq None ts), (VList vs). split; [reflexivity|]. split; [split; [cbn [anchors opt_list app]; exact As|exact Ks]|].
    split; [|constructor; exact Ss]. intros e. apply (MSeq e None ts vs []). apply Ms.
  - inversion H as [|? ev ? evs' H1 H2]; subst. inversion H1; subst. destruct (split_brought _ _ _ H2) as (e1 & e2 & -> & B1 & B2).
    inversion B2 as [|? ev ? ? B3 B4]; subst. inversion B3; subst. inversion B4; subst. destruct V as [Vs V].
    assert (X : exists ts ps, e1 = List.concat (List.map (fun p => events (fst p) ++ events (snd p)) ts) /\ List.concat (List.map (fun p => anchors (fst p) ++ anchors (snd p)) ts) = [] /\
      keys_free (NMap None ts) /\ (forall e, means_pairs e ts ps e) /\ Forall2 (fun kv kv' => fst kv = fst kv' /\ same (snd kv) (snd kv')) m ps).
    { clear H H1 H2 B2 B3 B4 Vs. revert e1 B1. induction m as [|[k x] m IHm]; intros e1 B1.
      - inversion B1; subst. exists [], []. repeat split; constructor.
      - cbn [flat_map fst snd app] in B1. inversion B1 as [|? ev ? evs'' Bk B1']; subst. destruct (split_brought _ _ _ B1') as (f1 & f2 & -> & C1 & C2). inversion IH as [|? ? Hx IH']; subst.
        destruct V as [Vx V], L as [[Lk Lx] L]. cbn [fst snd] in *. destruct (read_key k Lk ev Bk) as (plain & stale & kv & -> & Ak & Mk).
        destruct (Hx Vx Lx f1 C1) as (t & v' & -> & (A1 & A2) & M & S). destruct (IHm IH' V L f2 C2) as (ts & ps & -> & As & Ks & Ms & Ss).
        exists ((NScalar None None plain stale k, t) :: ts), ((k, v') :: ps). split; [reflexivity|]. split; [cbn [List.map List.concat fst snd anchors opt_list app]; rewrite A1, As; reflexivity|].
        split; [split; [split; [reflexivity|split; [exact Logic.I|exact A2]]|exact Ks]|]. split; [intros e; econstructor; eauto|constructor; auto]. }
    destruct X as (ts & ps & -> & As & Ks & Ms & Ss).
    assert (Ek : List.map fst m = List.map fst ps) by (clear - Ss; induction Ss as [|? ? ? ? [E _] _ IH]; cbn; congruence).
    assert (Sp := sorted_keys _ _ Ek Vs). exists (NMap None ts), (VMap (of_pairs ps)). split; [reflexivity|]. split; [split; [cbn [anchors opt_list app]; exact As|exact Ks]|].
    split; [|rewrite of_pairs_sorted by exact Sp; constructor; exact Ss]. intros e. apply (MMap e None ts ps []); [apply Ms|apply sorted_nodup, Sp].
  - inversion H as [|? ev ? ? H1 H2]; subst. inversion H2; subst. inversion H1; subst. destruct L as [F Sz].
    exists (NScalar None (Some yaml_binary) plain stale (rfc4648 (List.concat b))), (VBlob [base64_meaning (rfc4648 (List.concat b))]).
    split; [reflexivity|]. split; [split; [reflexivity|exact Logic.I]|]. split; [|rewrite meaning_rfc; constructor; cbn; rewrite app_nil_r; reflexivity].
    intros e. apply (MScalar e None (Some yaml_binary) plain stale). cbn [scalar_means]. change (beqb yaml_binary (s2b "tag:yaml.org,2002:binary")) with true. cbv iota.
    split; [reflexivity|]. split; [rewrite <- enc_list_rfc; apply enc_list_no_brace|].
    assert (X := encode_text_length 0 (List.concat b) ltac:(lia) ltac:(unfold llen in Sz; lia)). destruct X as [X _]. rewrite enc_list_rfc, app_length in X. unfold llen in *.
    change (base64_encode_size (N.of_nat (List.length (List.concat b))) 0) with (wrap32 (wrap32 (wrap32 (N.of_nat (List.length (List.concat b)) * 4) / 3 + 4) + 1)) in X.
    assert (Q := N.mod_lt (wrap32 (N.of_nat (List.length (List.concat b)) * 4) / 3 + 4 ) (2^32) ltac:(lia)). unfold wrap32 in X.
    rewrite (N.mod_small (N.of_nat (List.length (List.concat b)) * 4)) in X by lia.
    pose proof (N.div_le_upper_bound (N.of_nat (List.length (List.concat b)) * 4) 3 1333333334 ltac:(lia) ltac:(lia)). rewrite N.mod_small in X by (rewrite N.mod_small; lia). rewrite N.mod_small in X by lia.
    cbn [List.length] in X. assert (3 * (N.of_nat (List.length (List.concat b)) * 4 / 3) <= N.of_nat (List.length (List.concat b)) * 4) by (apply N.mul_div_le; lia). lia.
Qed.
End Write.

(** ** C50 *)
Lemma read_doc t v' : no_anchor t -> (forall e, means e t v' e) -> doc_means t v'.
Proof. intros [A K] M. split; [exists []; apply M|]. rewrite A. repeat split; [constructor|intros []|exact K]. Qed.
(** The calls for one document; EndDocument may be left out, and comes with the next BeginDocument or with Close. *)
Definition doc_calls (d : value * bool) : list eev := EvBeginDoc :: emit_value (fst d) ++ (if snd d then [EvEndDoc] else []).
Definition doc_outs (d : value * bool) : list yout := ODocStart :: youts 17 (fst d) ++ [ODocEnd].
Lemma end_doc_idem st : ye_end_doc (ye_end_doc st) = ye_end_doc st.
Proof. destruct st as [o []]; reflexivity. Qed.
Lemma docs_into text_ok : takes_ascii text_ok -> forall ds st, Forall (fun d => legible text_ok (fst d)) ds ->
  exists st', ye_calls text_ok 17 (flat_map doc_calls ds) st = Ok st' /\ ye_end_doc st' = YEmit (ye_out (ye_end_doc st) ++ flat_map doc_outs ds) false.
Proof.
  intros Asc ds. induction ds as [|[v b] ds IH]; intros st F; cbn [flat_map].
  - exists st. split; [reflexivity|]. rewrite app_nil_r. destruct st as [o []]; reflexivity.
  - inversion F as [|? ? Lv F']; subst. cbn [fst] in Lv. unfold doc_calls at 1. cbn [fst snd app ye_calls ye_call rbind]. rewrite <- app_assoc. rewrite (calls_app _ _ _ _ _ (write_ok text_ok Asc v Lv _)).
    set (s1 := into (ye_begin_doc (ye_end_doc st)) (youts 17 v)).
    assert (E : exists s2, ye_calls text_ok 17 (if b then [EvEndDoc] else []) s1 = Ok s2 /\ ye_end_doc s2 = YEmit (ye_out (ye_end_doc st) ++ doc_outs (v, b)) false).
    { assert (X : ye_end_doc s1 = YEmit (ye_out (ye_end_doc st) ++ doc_outs (v, b)) false).
      { unfold s1, into, doc_outs. destruct st as [o []]; cbn [ye_end_doc ye_begin_doc ye_in ye_out fst]; repeat (rewrite <- app_assoc; cbn [app]); reflexivity. }
      destruct b; eexists; (split; [reflexivity|]); [|exact X]. change (ye_begin_doc s1) with s1. rewrite end_doc_idem. exact X. }
    destruct E as (s2 & E1 & E2). rewrite (calls_app _ _ _ _ _ E1). destruct (IH s2 F') as (s3 & E3 & E4). exists s3. split; [exact E3|]. rewrite E4, E2. cbn [ye_out]. rewrite <- app_assoc. reflexivity.
Qed.

(** One Variant: what is given to libyaml, however it is laid out, is read back as the same Variant. *)
Theorem C50_roundtrip_partial : forall (text_ok : bytes -> bool) (v : value), takes_ascii text_ok -> vok v -> legible text_ok v ->
  exists outs, yaml_events text_ok ye_default (emit_value v) = Ok outs /\
  forall back, Forall2 brought outs back ->
  exists v', y_parse (YParser back false) = Ok (v', YParser [YStreamEnd] false) /\ same v v'.
Proof.
  intros text_ok v Asc V L. exists (OStreamStart :: ODocStart :: youts 17 v ++ [ODocEnd; OStreamEnd]). split.
  - unfold yaml_events, ye_default. rewrite (write_ok text_ok Asc v L). unfold into, ye_close, ye_end_doc, ye_begin_doc, ye_give, ye_new. cbn [rbind ye_in ye_out app]. rewrite <- app_assoc. reflexivity.
  - intros back B. inversion B as [|? b1 ? r1 B1 R1]; subst. inversion B1; subst. inversion R1 as [|? b2 ? r2 B2 R2]; subst. inversion B2; subst.
    destruct (split_brought _ _ _ R2) as (e1 & e2 & -> & C1 & C2). inversion C2 as [|? b3 ? r3 B3 R3]; subst. inversion B3; subst. inversion R3 as [|? b4 ? r4 B4 R4]; subst. inversion B4; subst. inversion R4; subst.
    destruct (read_ok text_ok Asc v V L e1 C1) as (t & v' & -> & N & M & S). exists v'. split; [|exact S].
    assert (P := parse_first t v' [YStreamEnd] (read_doc t v' N M)). unfold doc_events in P. cbn [app] in P. rewrite <- app_assoc in P. exact P.
Qed.
Print Assumptions C50_roundtrip_partial.

(** Several documents: each is yielded once, in order. *)
Theorem C50_documents_partial : forall (text_ok : bytes -> bool) (ds : list (value * bool)), takes_ascii text_ok -> ds <> [] ->
  Forall (fun d => vok (fst d) /\ legible text_ok (fst d)) ds ->
  exists outs, yaml_events text_ok ye_default (flat_map doc_calls ds) = Ok outs /\
  forall back, Forall2 brought outs back ->
  exists vs', Forall2 same (List.map fst ds) vs' /\
  forall ops, Forall (no_advance 1) ops -> load_all y_eof y_parse (YParser back false) ops = Ok (pos_run vs' [0%nat; List.length vs'] ops).
Proof.
  intros text_ok ds Asc Ne VL. exists (OStreamStart :: flat_map doc_outs ds ++ [OStreamEnd]). split.
  - unfold yaml_events, ye_default. destruct (docs_into text_ok Asc ds ye_new) as (st' & -> & E); [eapply Forall_impl; [|exact VL]; cbv beta; tauto|]. cbn [rbind]. unfold ye_close. rewrite E. reflexivity.
  - intros back B. inversion B as [|? b1 ? r1 B1 R1]; subst. inversion B1; subst. destruct (split_brought _ _ _ R1) as (e1 & e2 & -> & C1 & C2). inversion C2 as [|? b3 ? r3 B3 R3]; subst. inversion B3; subst. inversion R3; subst.
    assert (X : exists ts vs', e1 = List.concat (List.map doc_events ts) /\ Forall2 doc_means ts vs' /\ Forall2 same (List.map fst ds) vs').
    { clear Ne B R1 B1 C2 B3 R3. revert e1 C1. induction ds as [|[v b] ds IH]; intros e1 C1; [inversion C1; subst; exists [], []; repeat constructor|].
      cbn [flat_map] in C1. inversion VL as [|? ? [Vv Lv] V']; subst. cbn [fst] in Vv, Lv. unfold doc_outs at 1 in C1. cbn [app fst] in C1. inversion C1 as [|? b2 ? r2 B2 R2]; subst. inversion B2; subst.
      rewrite <- app_assoc in R2. destruct (split_brought _ _ _ R2) as (f1 & f2 & -> & D1 & D2). cbn [app] in D2. inversion D2 as [|? b4 ? r4 B4 R4]; subst. inversion B4; subst.
      destruct (read_ok text_ok Asc v Vv Lv f1 D1) as (t & v' & -> & N & M & S). destruct (IH V' r4 R4) as (ts & vs' & -> & Ms & Ss).
      exists (t :: ts), (v' :: vs'). split; [|split; constructor; auto; eapply read_doc; eauto]. cbn [List.map List.concat]. unfold doc_events at 2. cbn [app]. rewrite <- app_assoc. reflexivity. }
    destruct X as (ts & vs' & -> & Ms & Ss). exists vs'. split; [exact Ss|]. intros ops F. apply (C36_yaml_partial ts vs' ops); auto.
    destruct ts; [|discriminate]. inversion Ms; subst. destruct ds; [contradiction|]. inversion Ss.
Qed.
Print Assumptions C50_documents_partial.

(** *** Cases *)
(** libyaml's answer with errno clear: no quotes where there need be none. *)
Definition plainly (o : yout) : yev :=
  match o with
  | OStreamStart => YStreamStart | OStreamEnd => YStreamEnd | ODocStart => YDocStart | ODocEnd => YDocEnd
  | OSeqStart => YSeqStart None | OSeqEnd => YSeqEnd | OMapStart => YMapStart None | OMapEnd => YMapEnd
  | OScalar t _ s => YScalar None t true false s
  end.
Lemma plainly_brought outs : Forall2 brought outs (List.map plainly outs).
Proof. induction outs as [|o outs IH]; cbn [List.map]; [constructor|]. constructor; [|exact IH]. destruct o as [| | | |[t|] [] s| | | |]; constructor. reflexivity. Qed.
Definition all_ascii (s : bytes) : bool := forallb (fun c => bval c <? 128) s.
Definition case_v : value :=
  VMap [(s2b "-3", VList [VNull; VBool true; VInt (-7); VUns 18446744073709551615]); (s2b "b", VBlob [s2b "ab"; s2b "c"]);
        (s2b "f", VFlt (ld_of_d (S754_finite false 4503599627370497 (-52)))); (s2b "s", VStr (s2b "no: #x"))].

Lemma case_text s : guess_scalar false s = GText s -> existsb (fun c => bval c =? 0) s = false -> all_ascii s = true -> legible_text all_ascii s.
Proof.
  intros G N A. split; [|split; [exact A|apply not_scalar, G]]. intros I.
  assert (E : existsb (fun c => bval c =? 0) s = true) by (apply existsb_exists; exists (bchr 0); auto). congruence.
Qed.
Example C50_case : takes_ascii all_ascii /\ vok case_v /\ legible all_ascii case_v /\
  exists outs, yaml_events all_ascii ye_default (emit_value case_v) = Ok outs /\
  y_parse (YParser (List.map plainly outs) false) = Ok (VMap [(s2b "-3", VList [VNull; VBool true; VInt (-7); VUns 18446744073709551615]); (s2b "b", VBlob [s2b "abc"]);
    (s2b "f", VFlt (ld_of_d (S754_finite false 4503599627370497 (-52)))); (s2b "s", VStr (s2b "no: #x"))], YParser [YStreamEnd] false).
Proof.
  split; [intros s H; exact H|]. split; [|split].
  - split; [repeat split; cbn; intros k I; intuition (subst; reflexivity)|]. cbn; repeat split; try lia; try reflexivity; repeat constructor.
  - cbn [legible case_v]. cbn [fst snd]. split; [split; [right; exists (-3)%Z; split; [lia|reflexivity]|repeat split]|].
    split; [split; [left; apply case_text; vm_compute; reflexivity|split; [repeat constructor; discriminate|reflexivity]]|].
    split; [split; [left; apply case_text; vm_compute; reflexivity|eexists; split; [|reflexivity]; reflexivity]|].
    split; [split; [left; apply case_text; vm_compute; reflexivity|apply case_text; vm_compute; reflexivity]|exact Logic.I].
  - eexists. split; [vm_compute; reflexivity|]. vm_compute. reflexivity.
Qed.
Example C50_documents_case : exists outs,
  yaml_events all_ascii ye_default (flat_map doc_calls [(VList [], true); (VNull, false); (VMap [(s2b "a", VStr (s2b "b"))], false)]) = Ok outs /\
  load_all y_eof y_parse (YParser (List.map plainly outs) false) [IGet 0; INext 0; IGet 0; INext 0; IGet 0; INext 0; IEq 0 1] =
  Ok [OGet (Ok (VList [])); OGet (Ok VNull); OGet (Ok (VMap [(s2b "a", VStr (s2b "b"))])); OEq true].
Proof. eexists. split; [vm_compute; reflexivity|]. vm_compute. reflexivity. Qed.

(** ** What is lost *)
(** [v] may come back as [v']. *)
Definition comes_back (v v' : value) : Prop := exists outs back, yaml_events all_ascii ye_default (emit_value v) = Ok outs /\ Forall2 brought outs back /\
  y_parse (YParser back false) = Ok (v', YParser [YStreamEnd] false).
Lemma comes v v' : match yaml_events all_ascii ye_default (emit_value v) with Ok o => y_parse (YParser (List.map plainly o) false) | _ => UB end = Ok (v', YParser [YStreamEnd] false) -> comes_back v v'.
Proof. intros E. unfold comes_back. destruct (yaml_events all_ascii ye_default (emit_value v)) as [o| | | |] eqn:Ev; try discriminate. exists o, (List.map plainly o). split; [reflexivity|]. split; [apply plainly_brought|exact E]. Qed.
(** A text that spells null, a boolean or a number never comes back as a text when libyaml writes it without quotes,
    as the emitter lets it. *)
Theorem C50_spelled_text_lost : forall (text_ok : bytes -> bool) (s : bytes), text_ok (c_str s) = true -> means_scalar (c_str s) ->
  exists outs back, yaml_events text_ok ye_default (emit_value (VStr s)) = Ok outs /\ Forall2 brought outs back /\
  forall v q, y_parse (YParser back false) = Ok (v, q) -> forall x, v <> VStr x.
Proof.
  intros text_ok s T M. exists [OStreamStart; ODocStart; OScalar None StAny (c_str s); ODocEnd; OStreamEnd], [YStreamStart; YDocStart; YScalar None None true false (c_str s); YDocEnd; YStreamEnd].
  split; [unfold yaml_events; cbn [emit_value ye_calls ye_call]; unfold ye_scalar; rewrite T; reflexivity|]. split; [repeat constructor|].
  intros v q E x ->. set (t := NScalar None None true false (c_str s)).
  assert (D : doc_means t (guess_value (guess_scalar false (c_str s)))).
  { apply read_doc; [split; [reflexivity|exact Logic.I]|]. intros e. apply (MScalar e None None true false (c_str s)). reflexivity. }
  assert (P := parse_first t _ [YStreamEnd] D). unfold doc_events, t in P. cbn [events app] in P. rewrite P in E. injection E as E _. exact (spelled_not_text _ _ M _ E).
Qed.
Print Assumptions C50_spelled_text_lost.
(** A text that libyaml does not accept is refused. *)
Theorem C50_encoding_refused : forall (text_ok : bytes -> bool) (s : bytes), text_ok (c_str s) = false ->
  yaml_events text_ok ye_default (emit_value (VStr s)) = Throw RuntimeError.
Proof. intros text_ok s T. unfold yaml_events. cbn [emit_value ye_calls ye_call]. unfold ye_scalar. rewrite T. reflexivity. Qed.
Print Assumptions C50_encoding_refused.

(** The texts "5", "true", "~" and "1e3" come back as an integer, a boolean, null and a float. *)
Theorem C50_text_becomes_number_refuted : exists v v', vok v /\ v = VList [VStr (s2b "5"); VStr (s2b "true"); VStr (s2b "~"); VStr (s2b "1e3")] /\
  v' = VList [VInt 5; VBool true; VNull; VFlt (S754_finite false 18014398509481984000 (-54))] /\ comes_back v v'.
Proof. do 2 eexists. split; [|split; [reflexivity|split; [reflexivity|]]]; [cbn; repeat split; exact Logic.I|]. apply comes. vm_compute. reflexivity. Qed.
Print Assumptions C50_text_becomes_number_refuted.
(** Keys are read as scalars and then made texts: two keys can become one, and the value of one is lost. *)
Theorem C50_keys_refuted : exists v v', vok v /\ v = VMap [(s2b "0x10", VInt 1); (s2b "16", VInt 2); (s2b "null", VInt 3); (s2b "~", VInt 4)] /\
  v' = VMap [([], VInt 4); (s2b "16", VInt 2)] /\ comes_back v v'.
Proof.
  do 2 eexists. split; [|split; [reflexivity|split; [reflexivity|]]]; [|apply comes; vm_compute; reflexivity].
  split; [repeat split; cbn; intros k I; intuition (subst; reflexivity)|]. cbn; repeat split; lia.
Qed.
Print Assumptions C50_keys_refuted.
(** Texts are cut at a NUL, and long doubles are rounded to double. *)
Theorem C50_nul_refuted : exists v v', vok v /\ v = VStr [bchr 97; bchr 0; bchr 98] /\ v' = VStr [bchr 97] /\ comes_back v v'.
Proof. do 2 eexists. split; [|split; [reflexivity|split; [reflexivity|]]]; [exact Logic.I|]. apply comes. vm_compute. reflexivity. Qed.
Print Assumptions C50_nul_refuted.
Theorem C50_long_double_refuted : exists v v', vok v /\ v = VFlt (S754_finite false 9223372036854775809 (-63)) /\ v' = VFlt (S754_finite false 9223372036854775808 (-63)) /\ comes_back v v'.
Proof. do 2 eexists. split; [|split; [reflexivity|split; [reflexivity|]]]; [vm_compute; reflexivity|]. apply comes. vm_compute. reflexivity. Qed.
Print Assumptions C50_long_double_refuted.
