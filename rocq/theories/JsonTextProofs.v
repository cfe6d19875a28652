(** The emitter calls for a value stand for its text. *)
From Verif Require Import Base CNum Float FloatText Value Emit Base64 Base64Spec Base64Proofs ParserInput ParserInputProofs
  JSONEmitter JSONEmitterProofs JsonText.
From Verif Require P_Base64.
Open Scope N_scope.

(** All buffering calls of a sequence of emitter calls, stopping at an exception. *)
Fixpoint je_trace (p : jparams) (st : list jst) (es : list eev) : res (list prim * list jst * option exn) :=
  match es with
  | [] => Ok ([], st, None)
  | e :: t =>
      do (cs, st', x) <- je_calls p st e;
      match x with
      | Some _ => Ok (cs, st', x)
      | None => do (cs2, st2, x2) <- je_trace p st' t; Ok (cs ++ cs2, st2, x2)
      end
  end.

Lemma je_trace_app p : forall es1 es2 st cs st1,
  je_trace p st es1 = Ok (cs, st1, None) ->
  je_trace p st (es1 ++ es2) = do (cs2, st2, x) <- je_trace p st1 es2; Ok (cs ++ cs2, st2, x).
Proof.
  induction es1 as [|e es1 IH]; intros es2 st cs st1 H.
  - injection H as <- <-. cbn [app]. destruct (je_trace p st es2) as [[[c s] x]| | | |]; reflexivity.
  - cbn [app je_trace] in H |- *. destruct (je_calls p st e) as [[[c s] x]| | | |]; try discriminate.
    cbn [rbind] in H |- *. destruct x; [discriminate|].
    destruct (je_trace p s es1) as [[[c2 s2] x2]| | | |] eqn:E; try discriminate.
    cbn [rbind] in H. injection H as <- <- ->. rewrite (IH es2 s c2 s2 E).
    destruct (je_trace p s2 es2) as [[[c3 s3] x3]| | | |]; cbn [rbind]; try reflexivity.
    now rewrite app_assoc.
Qed.

Lemma raw_text p t : llen t < 2^32 -> prim_text p (PRaw t) = t.
Proof. intros H. cbn [prim_text]. unfold wrap32. rewrite N.mod_small by exact H. apply take_all. lia. Qed.

Lemma indent_text p d : d * j_indent p < 2^32 -> prim_text p (PIndent d) = nl p d.
Proof. intros H. cbn [prim_text]. unfold nl, spaces, wrap32. rewrite N.mod_small by exact H. reflexivity. Qed.

Lemma esc_char_len c : llen (esc_char c) <= 6.
Proof.
  assert (K : forallb (fun c => llen (esc_char c) <=? 6) all_bytes = true) by (vm_compute; reflexivity).
  pose proof (sweep _ K c) as S. cbv beta in S. lia.
Qed.

Lemma emit_string_text p s : llen s < 2^32 -> prims_text p (emit_string s) = str_text s.
Proof.
  intros H. unfold emit_string, str_text. unfold wrap32. rewrite N.mod_small by exact H. rewrite take_all by lia.
  change (PRaw [quote_char] :: ?l) with ([PRaw [quote_char]] ++ l).
  rewrite !prims_text_app. f_equal. f_equal.
  unfold prims_text. rewrite flat_map_concat_map, map_map, <- flat_map_concat_map.
  induction s as [|c s IH]; [reflexivity|]. cbn [flat_map].
  rewrite IH.
  - f_equal. apply raw_text. pose proof (esc_char_len c). lia.
  - unfold llen in *. cbn [List.length] in H. lia.
Qed.

Lemma join_cons sep x l : join sep (x :: l) = x ++ flat_map (fun y => sep ++ y) l.
Proof.
  revert x. induction l as [|y l IH]; intros x; [cbn; now rewrite app_nil_r|].
  change (join sep (x :: y :: l)) with (x ++ sep ++ join sep (y :: l)). rewrite IH. cbn [flat_map].
  now rewrite <- app_assoc.
Qed.

(** What emitting does in a given state: the separator, then [text]. *)
Definition emits (p : jparams) (st : list jst) (es : list eev) (text : bytes) : Prop :=
  exists cs, je_trace p st es = Ok (cs, snd (check_separator st), None) /\
    prims_text p cs = prims_text p (fst (check_separator st)) ++ text.

Lemma emits_one p st e cs : je_calls p st e = Ok (fst (check_separator st) ++ cs, snd (check_separator st), None) ->
  emits p st [e] (prims_text p cs).
Proof.
  intros H. exists (fst (check_separator st) ++ cs). cbn [je_trace]. rewrite H. cbn [rbind je_trace].
  rewrite app_nil_r. split; [reflexivity|]. apply prims_text_app.
Qed.

Lemma sep_len st : llen (snd (check_separator st)) = llen st.
Proof. destruct st as [|[] t]; reflexivity. Qed.

Lemma prims_text_raw p t : llen t < 2^32 -> prims_text p [PRaw t] = t.
Proof. intros H. unfold prims_text. cbn [flat_map]. rewrite raw_text by exact H. apply app_nil_r. Qed.

Lemma emits_key p st s : llen s < 2^32 -> emits p st [EvStr s] (str_text s).
Proof. intros H. rewrite <- (emit_string_text p s H). apply emits_one. reflexivity. Qed.

Lemma llen_cons {A} (x : A) l : llen (x :: l) = llen l + 1.
Proof. unfold llen. cbn [List.length]. lia. Qed.

Ltac rawt := repeat match goal with
  | |- context[prims_text ?p [PRaw ?t]] =>
      replace (prims_text p [PRaw t]) with t by (symmetry; apply prims_text_raw; reflexivity) end.

Lemma list_rest p t : forall l, (llen t + 1) * j_indent p < 2^32 ->
  Forall (fun v => forall st, jfits p (llen st) v -> emits p st (emit_value v) (vtext p (llen st) v)) l ->
  Forall (jfits p (llen t + 1)) l ->
  exists cs, je_trace p (InList :: t) (flat_map emit_value l) = Ok (cs, InList :: t, None) /\
    prims_text p cs = flat_map (fun y => s2b "," ++ y) (List.map (fun x => nl p (llen t + 1) ++ vtext p (llen t + 1) x) l).
Proof.
  induction l as [|x l IH]; intros Hd F1 F2.
  - exists []. split; reflexivity.
  - inversion F1 as [|? ? E F1']; inversion F2 as [|? ? J F2']; subst.
    destruct (IH Hd F1' F2') as (cs2 & R2 & T2).
    destruct (E (InList :: t)) as (cs & R & T); [rewrite llen_cons; exact J|].
    cbn [check_separator snd fst] in R, T. cbn [flat_map].
    rewrite (je_trace_app _ _ _ _ _ _ R), R2. cbn [rbind]. eexists. split; [reflexivity|].
    rewrite prims_text_app, T, T2. cbn [List.map flat_map]. rewrite llen_cons in *. rewrite <- !app_assoc.
    change (prims_text p [PRaw (s2b ","); PIndent (llen t + 1)]) with
      (prims_text p ([PRaw (s2b ",")] ++ [PIndent (llen t + 1)])). rewrite prims_text_app. rawt.
    unfold prims_text at 1. cbn [flat_map]. rewrite indent_text by exact Hd.
    now rewrite app_nil_r, <- !app_assoc.
Qed.

Definition entry_text (p : jparams) (d : N) (kv : bytes * value) : bytes :=
  nl p d ++ str_text (c_str (fst kv)) ++ s2b ": " ++ vtext p d (snd kv).

Lemma map_entry p t first kv : (llen t + 1) * j_indent p < 2^32 ->
  (forall st, jfits p (llen st) (snd kv) -> emits p st (emit_value (snd kv)) (vtext p (llen st) (snd kv))) ->
  llen (c_str (fst kv)) < 2^32 /\ jfits p (llen t + 1) (snd kv) ->
  first = MapFirst \/ first = InMapKey ->
  exists cs, je_trace p (first :: t) (EvStr (c_str (fst kv)) :: emit_value (snd kv)) = Ok (cs, InMapKey :: t, None) /\
    prims_text p cs = (match first with MapFirst => [] | _ => s2b "," end) ++ entry_text p (llen t + 1) kv.
Proof.
  intros Hd E [H1 H2] Hf.
  destruct (emits_key p (first :: t) (c_str (fst kv)) H1) as (cs & R & T).
  assert (S : snd (check_separator (first :: t)) = InMapValue :: t) by (destruct Hf; subst; reflexivity).
  rewrite S in R.
  destruct (E (InMapValue :: t)) as (cs2 & R2 & T2); [rewrite llen_cons; exact H2|].
  change (EvStr (c_str (fst kv)) :: emit_value (snd kv)) with ([EvStr (c_str (fst kv))] ++ emit_value (snd kv)).
  rewrite (je_trace_app _ _ _ _ _ _ R), R2. cbn [rbind check_separator snd fst]. eexists. split; [reflexivity|].
  assert (X : prims_text p (fst (check_separator (first :: t))) =
    (match first with MapFirst => [] | _ => s2b "," end) ++ nl p (llen t + 1)).
  { destruct Hf; subst; cbn [check_separator fst]; rewrite llen_cons.
    - unfold prims_text. cbn [flat_map app]. rewrite indent_text by exact Hd. apply app_nil_r.
    - change (prims_text p [PRaw (s2b ","); PIndent (llen t + 1)]) with
        (prims_text p ([PRaw (s2b ",")] ++ [PIndent (llen t + 1)])). rewrite prims_text_app. rawt.
      unfold prims_text. cbn [flat_map]. rewrite indent_text by exact Hd. now rewrite app_nil_r. }
  rewrite prims_text_app, T, T2, X. cbn [check_separator snd fst]. rawt. unfold entry_text.
  rewrite llen_cons. rewrite <- !app_assoc. reflexivity.
Qed.

Lemma map_rest p t : forall m, (llen t + 1) * j_indent p < 2^32 ->
  Forall (fun kv => forall st, jfits p (llen st) (snd kv) -> emits p st (emit_value (snd kv)) (vtext p (llen st) (snd kv))) m ->
  Forall (fun kv => llen (c_str (fst kv)) < 2^32 /\ jfits p (llen t + 1) (snd kv)) m ->
  exists cs, je_trace p (InMapKey :: t) (flat_map (fun kv => EvStr (c_str (fst kv)) :: emit_value (snd kv)) m) = Ok (cs, InMapKey :: t, None) /\
    prims_text p cs = flat_map (fun y => s2b "," ++ y) (List.map (entry_text p (llen t + 1)) m).
Proof.
  induction m as [|x m IH]; intros Hd F1 F2.
  - exists []. split; reflexivity.
  - inversion F1 as [|? ? E F1']; inversion F2 as [|? ? J F2']; subst.
    destruct (IH Hd F1' F2') as (cs2 & R2 & T2).
    destruct (map_entry p t InMapKey x Hd E J ltac:(tauto)) as (cs & R & T).
    cbn [flat_map]. rewrite (je_trace_app _ _ _ _ _ _ R), R2. cbn [rbind]. eexists. split; [reflexivity|].
    rewrite prims_text_app, T, T2. reflexivity.
Qed.

Lemma closing p d (c : bytes) : d * j_indent p < 2^32 -> llen c < 2^32 ->
  prims_text p [PIndent d; PRaw c; PFlush] = nl p d ++ c.
Proof.
  intros H Hc. unfold prims_text. cbn [flat_map]. rewrite indent_text by exact H. rewrite raw_text by exact Hc.
  cbn [prim_text]. now rewrite app_nil_r.
Qed.

Lemma jdepth a b : (a + 1) * b < 2^32 -> a * b < 2^32.
Proof. nia. Qed.

Lemma emit_value_text p : forall v st, jfits p (llen st) v -> emits p st (emit_value v) (vtext p (llen st) v).
Proof.
  induction v as [|b|z|n|x|s|l IH|m IH|b] using value_ind'; intros st J.
  - cbn [emit_value vtext]. rewrite <- (prims_text_raw p (s2b "null")) by reflexivity. apply emits_one. reflexivity.
  - destruct b; cbn [emit_value vtext].
    + rewrite <- (prims_text_raw p (s2b "true")) by reflexivity. apply emits_one. reflexivity.
    + rewrite <- (prims_text_raw p (s2b "false")) by reflexivity. apply emits_one. reflexivity.
  - cbn [emit_value vtext]. rewrite <- (prims_text_raw p (dec_of_Z z)) by exact J. apply emits_one. reflexivity.
  - cbn [emit_value vtext]. rewrite <- (prims_text_raw p (dec_of_N n)) by exact J. apply emits_one. reflexivity.
  - cbn [emit_value vtext]. cbn [jfits] in J. destruct J as [J1 J2].
    rewrite <- (prims_text_raw p (flt_text p (d_of_ld x))) by exact J2.
    apply emits_one. cbn [je_calls]. unfold flt_text.
    destruct (f_nan (d_of_ld x) || f_inf (d_of_ld x))%bool eqn:E; [|reflexivity].
    destruct (j_strict p); [|reflexivity]. discriminate (J1 eq_refl).
  - apply emits_key. exact J.
  - apply jfits_list in J. destruct J as [Hd J]. cbn [emit_value vtext].
    set (st1 := snd (check_separator st)).
    assert (L1 : llen st1 = llen st) by apply sep_len. rewrite <- L1 in J, Hd |- *.
    unfold emits. fold st1.
    assert (B : exists cs st2, je_trace p (ListFirst :: st1) (flat_map emit_value l) = Ok (cs, st2 :: st1, None) /\
      prims_text p cs = join (s2b ",") (List.map (fun x => nl p (llen st1 + 1) ++ vtext p (llen st1 + 1) x) l)).
    { destruct l as [|x l]; [exists [], ListFirst; split; reflexivity|].
      inversion IH as [|? ? E IH']; inversion J as [|? ? Jx J']; subst.
      destruct (list_rest p st1 l Hd IH' J') as (cs2 & R2 & T2).
      destruct (E (ListFirst :: st1)) as (cs & R & T); [rewrite llen_cons; exact Jx|].
      cbn [check_separator snd fst] in R, T. cbn [flat_map].
      rewrite (je_trace_app _ _ _ _ _ _ R), R2. cbn [rbind]. eexists _, _. split; [reflexivity|].
      rewrite prims_text_app, T, T2. cbn [List.map]. rewrite join_cons. f_equal.
      rewrite llen_cons. unfold prims_text. cbn [flat_map]. rewrite indent_text by exact Hd. now rewrite app_nil_r. }
    destruct B as (cs & st2 & R & T).
    cbn [je_trace je_calls rbind]. rewrite (je_trace_app _ _ _ _ _ _ R).
    cbn [je_trace je_calls rbind]. eexists. split; [reflexivity|].
    rewrite app_nil_r, !prims_text_app, T, closing; [|apply jdepth, Hd|reflexivity]. rawt.
    rewrite <- !app_assoc. reflexivity.
  - apply jfits_map in J. destruct J as [Hd J]. cbn [emit_value vtext].
    set (st1 := snd (check_separator st)).
    assert (L1 : llen st1 = llen st) by apply sep_len. rewrite <- L1 in J, Hd |- *.
    unfold emits. fold st1.
    assert (B : exists cs st2, je_trace p (MapFirst :: st1) (flat_map (fun kv => EvStr (c_str (fst kv)) :: emit_value (snd kv)) m) = Ok (cs, st2 :: st1, None) /\
      prims_text p cs = join (s2b ",") (List.map (entry_text p (llen st1 + 1)) m)).
    { destruct m as [|x m]; [exists [], MapFirst; split; reflexivity|].
      inversion IH as [|? ? E IH']; inversion J as [|? ? Jx J']; subst.
      destruct (map_rest p st1 m Hd IH' J') as (cs2 & R2 & T2).
      destruct (map_entry p st1 MapFirst x Hd E Jx ltac:(tauto)) as (cs & R & T).
      cbn [flat_map].
      rewrite (je_trace_app _ _ _ _ _ _ R), R2. cbn [rbind]. eexists _, _. split; [reflexivity|].
      rewrite prims_text_app, T, T2. cbn [List.map]. rewrite join_cons. reflexivity. }
    destruct B as (cs & st2 & R & T).
    cbn [je_trace je_calls rbind]. rewrite (je_trace_app _ _ _ _ _ _ R).
    cbn [je_trace je_calls rbind]. eexists. split; [reflexivity|].
    rewrite app_nil_r, !prims_text_app, T, closing; [|apply jdepth, Hd|reflexivity]. rawt.
    rewrite <- !app_assoc. reflexivity.
  - cbn [emit_value vtext]. destruct J as (Js & Jf & Jl).
    change (prims_text p) with (prims_text p).
    destruct (P_Base64.C07_base64_roundtrip_partial b 0 Jf) as (t & R & _).
    destruct (P_Base64.C07_base64_rfc4648_partial b Jf) as (n & R').
    rewrite R in R'. injection R' as -> <-.
    assert (X : prims_text p [PRaw [quote_char]; PRaw blob_magic_json; PRaw (rfc4648 (List.concat b)); PRaw [quote_char]] =
      [quote_char] ++ s2b "\u0000BLOB" ++ rfc4648 (List.concat b) ++ [quote_char]).
    { unfold prims_text. cbn [flat_map]. rewrite (raw_text p (rfc4648 _)) by exact Jl.
      rewrite !raw_text by reflexivity. now rewrite app_nil_r. }
    rewrite <- X. apply emits_one. cbn [je_calls]. rewrite Js, R. cbn [rbind].
    rewrite (take_all _ (rfc4648 _)); [reflexivity|]. unfold wrap32. rewrite N.mod_small; unfold llen in *; lia.
Qed.
