(** C51: what the XML emitter gives to libxml2, the XML parser reads back as the same Variant. *)
From Verif Require Import Base CNum Float FloatText FloatTextProofs Value Convert Emit Builder Base64 Base64Spec Base64Proofs ParseBool GuessScalar P_GuessScalar Bundle P_Bundle
  P_Base64 JsonTree ParserInput JsonMeaning P_JSONRound LoadAll LoadAllProofs P_LoadAll XML P_YAML.
Open Scope N_scope.

(** ** What is assumed of libxml2 *)
(** White space of XML. *)
Definition xml_blank (s : bytes) : bool := forallb (fun c => existsb (N.eqb (bval c)) [9; 10; 13; 32]) s.
(** What the reader reports of what was written with these calls inside the elements [open]: an element without any
    call inside is written <a/>; a text that libxml2 can carry ([text_ok]: UTF-8 and characters of XML) is reported as it
    was, as white space when it is blank, and not at all when it is empty; comments, indentation and so on may be anywhere. *)
Inductive shown (text_ok : bytes -> bool) : list bytes -> list wcall -> list xev -> Prop :=
| sh_nil : shown text_ok [] [] []
| sh_other open w x : shown text_ok open w x -> shown text_ok open w (XOther :: x)
| sh_empty open n w x : shown text_ok open w x -> shown text_ok open (WStart n :: WEnd :: w) (XElem n true :: x)
| sh_start open n c w x : c <> WEnd -> shown text_ok (n :: open) (c :: w) x -> shown text_ok open (WStart n :: c :: w) (XElem n false :: x)
| sh_end open n w x : shown text_ok open w x -> shown text_ok (n :: open) (WEnd :: w) (XEnd n :: x)
| sh_nothing open w x : shown text_ok open w x -> shown text_ok open (WText [] :: w) x
| sh_blank open s w x : s <> [] -> xml_blank s = true -> shown text_ok open w x -> shown text_ok open (WText s :: w) (XOther :: x)
| sh_text open s w stale x : xml_blank s = false -> text_ok s = true -> shown text_ok open w x -> shown text_ok open (WText s :: w) (XText stale s :: x).

(** ** What can be written *)
Definition carried (text_ok : bytes -> bool) (s : bytes) : Prop := no_nul s /\ (s = [] \/ xml_blank s = false /\ text_ok s = true).
Fixpoint bearable (text_ok : bytes -> bool) (v : value) : Prop :=
  match v with
  | VNull | VBool _ | VInt _ | VUns _ => True
  | VFlt x => exists y, is_double y /\ x = ld_of_d y
  | VStr s => carried text_ok s
  | VBlob b => Forall (fun x => x <> []) b /\ b <> [] /\ llen (List.concat b) < 1000000000
  | VList l => (fix go l := match l with [] => True | x :: t => bearable text_ok x /\ go t end) l
  | VMap m => (fix go m := match m with [] => True | kv :: t => (carried text_ok (fst kv) /\ bearable text_ok (snd kv)) /\ go t end) m
  end.
(** Printable ASCII and ends of lines are characters of XML. *)
Definition takes_print (text_ok : bytes -> bool) : Prop :=
  forall s, forallb (fun c => (32 <=? bval c) && (bval c <? 127) || (bval c =? 10))%bool s = true -> text_ok s = true.

(** The calls for a value. *)
Definition blob_text (b : iovec) : bytes := enc_list 72 0 (List.concat b) ++ [NL].
Definition el (n : bytes) (s : bytes) : list wcall := [WStart n; WText s; WEnd].
Fixpoint xouts (prec : N) (v : value) : list wcall :=
  match v with
  | VNull => [WStart NULL_NAME; WEnd]
  | VBool b => [WStart (if b then TRUE_NAME else FALSE_NAME); WEnd]
  | VInt z => el INTEGER_NAME (dec_of_Z z)
  | VUns n => el INTEGER_NAME (dec_of_N n)
  | VFlt x => el FLOAT_NAME (print_g (Z.of_N prec) (d_of_ld x))
  | VStr s => el STRING_NAME (c_str s)
  | VBlob b => el BLOB_NAME (blob_text b)
  | VList l => WStart LIST_NAME :: flat_map (xouts prec) l ++ [WEnd]
  | VMap m => WStart MAP_NAME :: flat_map (fun kv => el KEY_NAME (c_str (fst kv)) ++ xouts prec (snd kv)) m ++ [WEnd]
  end.

(** *** The texts *)
Lemma dec_fold ds a : forallb is_digit ds = true -> fold_left (fun a c => 10 * a + xdigit_val c) ds a = dec_acc a ds.
Proof.
  unfold dec_acc. revert a; induction ds as [|d ds IH]; intros a H; [reflexivity|]. cbn [forallb] in H. apply andb_true_iff in H. cbn [fold_left].
  rewrite IH by tauto. unfold xdigit_val. destruct H as [H _]. rewrite H. reflexivity.
Qed.
Lemma digit_no_space c : is_digit c = true -> is_space c = false /\ aeqb c "-" = false /\ aeqb c "+" = false.
Proof.
  assert (S : forallb (fun c => implb (is_digit c) (negb (is_space c) && negb (aeqb c "-") && negb (aeqb c "+"))) all_bytes = true) by (vm_compute; reflexivity).
  intros D. pose proof (sweep _ S c) as T. cbv beta in T. rewrite D in T. cbn [implb] in T. apply andb_true_iff in T. destruct T as [T T3]. apply andb_true_iff in T. destruct T as [T1 T2].
  repeat split; apply negb_true_iff; assumption.
Qed.
Lemma dec_cons n : exists c ds, dec_of_N n = c :: ds /\ is_digit c = true.
Proof. destruct (dec_of_N_spec n) as (_ & D & N & _). destruct (dec_of_N n) as [|c ds]; [contradiction|]. cbn in D. apply andb_true_iff in D. exists c, ds. tauto. Qed.
Lemma sign_dec n : take_sign (skip_space (dec_of_N n)) = (false, dec_of_N n) /\ take_sign (skip_space ("-"%char :: dec_of_N n)) = (true, dec_of_N n).
Proof.
  split; [|reflexivity]. destruct (dec_cons n) as (c & ds & -> & D). destruct (digit_no_space c D) as (S & M & P). unfold skip_space. cbn [span]. rewrite S. cbn [snd take_sign]. rewrite M, P. reflexivity.
Qed.
Lemma strto0_of s neg n : take_sign (skip_space s) = (neg, dec_of_N n) -> strto0 s = (neg, n).
Proof.
  intros E. unfold strto0. rewrite E. f_equal. destruct (dec_of_N_spec n) as (V & D & N & Z). destruct (dec_cons n) as (c & ds & Ec & Dc). rewrite Ec in *.
  destruct (aeqb c "0") eqn:Q.
  - apply aeqb_eq in Q. destruct (Z c ds eq_refl Q) as [-> ->]. subst c. reflexivity.
  - rewrite <- (app_nil_r (c :: ds)). rewrite span_all by (auto). cbn [fst]. rewrite dec_fold by exact D. exact V.
Qed.
Lemma strto0_dec z : strto0 (dec_of_Z z) = ((z <? 0)%Z, Z.to_N (Z.abs z)).
Proof.
  unfold dec_of_Z. destruct (Z.ltb_spec z 0); apply strto0_of; [replace (Z.abs z) with (- z)%Z by lia; apply sign_dec|replace (Z.abs z) with z by lia; apply sign_dec].
Qed.
Lemma xml_int_back stale z : (- 2^63 <= z < 2^64)%Z -> whole z (xml_int stale (dec_of_Z z)).
Proof.
  intros R. unfold xml_int, strtoll0, strtoull0. rewrite strto0_dec. cbv zeta beta.
  replace (if (z <? 0)%Z then (- Z.of_N (Z.to_N (Z.abs z)))%Z else Z.of_N (Z.to_N (Z.abs z))) with z by (destruct (Z.ltb_spec z 0); lia).
  replace (z <? - 2^63)%Z with false by (symmetry; apply Z.ltb_ge; lia). destruct (Z.ltb_spec (2^63 - 1) z) as [H|H].
  - rewrite orb_true_r. cbn [andb]. rewrite Z.eqb_refl. replace (z <? 0)%Z with false by (symmetry; apply Z.ltb_ge; lia).
    replace (2^64 <=? Z.to_N (Z.abs z)) with false by (symmetry; apply N.leb_gt; lia). cbn [andb]. right. split; [lia|]. f_equal. lia.
  - destruct ((z =? 2^63 - 1)%Z && (stale || false))%bool eqn:Q; [|left; split; [lia|reflexivity]]. apply andb_true_iff in Q. destruct Q as [Q _]. apply Z.eqb_eq in Q. subst z.
    right. split; [lia|]. reflexivity.
Qed.
Lemma strtod_all_num sg c r : In sg signs -> (is_digit c || aeqb c ".")%bool = true -> strtod_all (sg ++ c :: r) = strtod (sg ++ c :: r).
Proof.
  intros S C. assert (H : forallb (fun c => implb (is_digit c || aeqb c ".") (negb (is_space c) && negb (aeqb c "-") && negb (aeqb c "+") && negb (aeqb (to_lower c) "i") && negb (aeqb (to_lower c) "n"))) all_bytes = true) by (vm_compute; reflexivity).
  pose proof (sweep _ H c) as T. cbv beta in T. rewrite C in T. cbn [implb] in T. repeat (apply andb_true_iff in T; destruct T as [T ?]). repeat match goal with H : negb _ = true |- _ => apply negb_true_iff in H end.
  assert (E : exists neg, take_sign (skip_space (sg ++ c :: r)) = (neg, c :: r)).
  { cbn in S. destruct S as [<-|[<-|[<-|[]]]]; cbn [app]; unfold skip_space; cbn [span]; rewrite ?T; cbn [snd take_sign]; [|eexists; reflexivity|eexists; reflexivity].
    rewrite H3, H2. eexists. reflexivity. }
  destruct E as [neg E]. unfold strtod_all. rewrite E. cbn [firstn List.map]. replace (beqb (to_lower c :: _) (s2b "inf")) with false by (cbn; rewrite H1; reflexivity).
  replace (beqb (to_lower c :: _) (s2b "nan")) with false by (cbn; rewrite H0; reflexivity). reflexivity.
Qed.
Lemma xml_float_back d : is_double d -> strtod_all (print_g 17 d) = d.
Proof.
  intros D. destruct (f_finite d) eqn:F.
  - destruct (float_spelled d F) as (sg & ip & fp & ex & S). assert (B := strtod_print d D F). rewrite <- B at 2. clear D F B. remember (print_g 17 d) as s eqn:E. clear E.
    inversion S as [| | | | | |? ? ? ? t S1 S2 S3 S4 S5|? ? ? t S1 S2 S3 S5| | |]; subst.
    + destruct ip as [|c ip]; [apply strtod_all_num; auto|]. destruct (digits_cons (c :: ip) S2 ltac:(discriminate)) as (x & r & [= <- <-] & Hx). cbn [app]. apply strtod_all_num; [auto|]. rewrite Hx. reflexivity.
    + destruct (digits_cons ip S2 S3) as (x & r & -> & Hx). cbn [app]. apply strtod_all_num; [auto|]. rewrite Hx. reflexivity.
  - destruct d as [s|s| |s m e]; try discriminate F; [destruct s|]; reflexivity.
Qed.
Definition printable (c : ascii) : bool := ((32 <=? bval c) && (bval c <? 127) || (bval c =? 10))%bool.
Lemma bare_xml s : bare s -> forallb printable s = true /\ xml_blank s = false.
Proof.
  intros (F & E & _). split.
  - rewrite forallb_forall in *. intros c I. apply F in I.
    assert (S : forallb (fun c => implb (letter c || aeqb c "." || aeqb c "+" || aeqb c "-") (printable c)) all_bytes = true) by (vm_compute; reflexivity).
    pose proof (sweep _ S c) as T. cbv beta in T. rewrite I in T. exact T.
  - apply existsb_exists in E. destruct E as (c & I & L). destruct (xml_blank s) eqn:B; [|reflexivity]. unfold xml_blank in B. rewrite forallb_forall in B. apply B in I.
    assert (S : forallb (fun c => implb (letter c) (negb (existsb (N.eqb (bval c)) [9; 10; 13; 32]))) all_bytes = true) by (vm_compute; reflexivity).
    pose proof (sweep _ S c) as T. cbv beta in T. rewrite L, I in T. discriminate.
Qed.
Lemma bare_print d : bare (print_g 17 d).
Proof.
  destruct (f_finite d) eqn:F; [apply bare_float, F|]. destruct d as [s|s| |s m e]; try discriminate F; [destruct s|]; (split; [reflexivity|split; [reflexivity|split; discriminate]]).
Qed.
Lemma blob_in b c : In c (blob_text b) -> c = NL \/ In c (alphabet ++ ["="%char]).
Proof.
  intros I. destruct (aeqb c NL) eqn:Q; [left; apply aeqb_eq, Q|right]. apply rfc4648_chars with (data := List.concat b). rewrite <- (enc_list_strip 72 (List.concat b) 0).
  unfold blob_text in I. apply in_app_or in I. destruct I as [I|[<-|[]]]; [|discriminate Q]. unfold strip_nl. apply filter_In. rewrite Q. auto.
Qed.
Lemma blob_print b : forallb printable (blob_text b) = true.
Proof.
  apply forallb_forall. intros c I. apply blob_in in I. assert (S : forallb printable (NL :: alphabet ++ ["="%char]) = true) by (vm_compute; reflexivity).
  rewrite forallb_forall in S. apply S. destruct I as [->|I]; [left; reflexivity|right; exact I].
Qed.
Lemma blob_no_nul b : no_nul (blob_text b).
Proof. intros I. assert (P := blob_print b). rewrite forallb_forall in P. apply P in I. discriminate I. Qed.
Lemma blob_no_brace b : ~ In "{"%char (blob_text b).
Proof. unfold blob_text. intros I. apply in_app_or in I. destruct I as [I|[I|[]]]; [exact (enc_list_no_brace _ _ _ I)|discriminate I]. Qed.
Lemma blob_meaning b : Forall (fun x => x <> []) b -> base64_encode b 72 = Ok (blob_text b, wrap32 (llen (blob_text b))) /\ base64_decode (blob_text b) = Ok (List.concat b).
Proof.
  intros F. assert (E := base64_encode_list b 72 F). cbv zeta in E. change (0 <? 72) with true in E. cbv iota in E. fold (blob_text b) in E. split; [exact E|].
  destruct (C07_base64_roundtrip_partial b 72 F) as (t & E' & _ & D). rewrite E in E'. injection E' as <-. exact D.
Qed.
Lemma blob_solid b : Forall (fun x => x <> []) b -> b <> [] -> xml_blank (blob_text b) = false.
Proof.
  intros F N. destruct (xml_blank (blob_text b)) eqn:B; [|reflexivity]. destruct (blob_meaning b F) as [_ D]. rewrite base64_decode_meaning in D by apply blob_no_brace. injection D as D.
  assert (X : flat_map char_bits (blob_text b) = []).
  { unfold xml_blank in B. clear D. induction (blob_text b) as [|c s IH]; [reflexivity|]. cbn [forallb] in B. apply andb_true_iff in B. destruct B as [B1 B2]. cbn [flat_map]. rewrite IH by exact B2.
    assert (S : forallb (fun c => implb (existsb (N.eqb (bval c)) [9; 10; 13; 32]) (match char_bits c with [] => true | _ => false end)) all_bytes = true) by (vm_compute; reflexivity).
    pose proof (sweep _ S c) as T. cbv beta in T. rewrite B1 in T. cbn [implb] in T. destruct (char_bits c); [reflexivity|discriminate]. }
  unfold base64_meaning in D. rewrite X in D. destruct b as [|x b]; [contradiction|]. inversion F; subst. destruct x; [contradiction|discriminate D].
Qed.
Lemma blob_size b : llen (List.concat b) < 1000000000 -> llen (blob_text b) + 1 <= base64_encode_size (wrap32 (llen (List.concat b))) 72 /\ 3 * llen (blob_text b) < 2^32.
Proof.
  intros L. destruct (encode_text_length 72 (List.concat b) ltac:(lia) ltac:(unfold llen in L; lia)) as [S _]. change (0 <? 72) with true in S. cbv iota in S. fold (blob_text b) in S.
  assert (W : wrap32 (llen (List.concat b)) = llen (List.concat b)) by (unfold wrap32; apply N.mod_small; lia). rewrite W.
  unfold llen in *. set (n := N.of_nat (List.length (List.concat b))) in *. set (k := N.of_nat (List.length (blob_text b))) in *. clearbody n k. clear W.
  split; [exact S|]. unfold base64_encode_size in S. change (0 <? 72) with true in S. cbv iota in S. unfold wrap32 in S.
  rewrite (N.mod_small (n * 4)) in S by lia. assert (Q : n * 4 / 3 <= 1333333334) by (apply N.div_le_upper_bound; lia).
  rewrite (N.mod_small (n * 4 / 3 + 4)) in S by lia. set (r := n * 4 / 3 + 4) in *. assert (Q2 : r / 72 <= 18518520) by (apply N.div_le_upper_bound; lia).
  rewrite (N.mod_small (r / 72 + 1)) in S by lia. rewrite (N.mod_small (2 * _)) in S by lia. rewrite N.mod_small in S by lia. lia.
Qed.
Lemma xml_blob_back b : Forall (fun x => x <> []) b -> llen (List.concat b) < 1000000000 -> xml_blob (blob_text b) = Ok (VBlob [List.concat b]).
Proof.
  intros F L. destruct (blob_meaning b F) as [_ D]. unfold xml_blob. rewrite D. cbn [rbind]. destruct (blob_size b L) as [_ S].
  assert (X := C08_decode_size_sufficient_partial (blob_text b) (List.concat b) S (blob_no_brace b) D). cbv zeta in X.
  replace (_ <? _) with false; [reflexivity|]. symmetry. apply N.ltb_ge. unfold wrap32. rewrite N.mod_small by lia. unfold llen. lia.
Qed.

(** *** Writing *)
Definition after (s : list xstate) : list xstate := match s with XValue :: t => XKey :: t | s => s end.
Definition expects (s : list xstate) : Prop := match s with [] | XKey :: _ => False | _ => True end.
Lemma check_after s : expects s -> check_map_key true s = Ok (after s).
Proof. destruct s as [|[] s]; cbn; try contradiction; reflexivity. Qed.
Lemma xcalls_app prec a b st st' : xe_calls prec a st = Ok st' -> xe_calls prec (a ++ b) st = xe_calls prec b st'.
Proof. revert st; induction a as [|e a IH]; intros st; cbn [app xe_calls]; [intros [= ->]; reflexivity|]. destruct (xe_call prec e st) as [s| | | |]; cbn [rbind]; try discriminate. apply IH. Qed.
Lemma text_into n s st : expects (xe_state st) -> xe_text n true s st = Ok (XEmit (xe_out st ++ el n s) (after (xe_state st))).
Proof. intros E. unfold xe_text, xe_start. rewrite check_after by exact E. cbn [rbind]. unfold xe_put. cbn [xe_out xe_state]. repeat (rewrite <- app_assoc; cbn [app]). reflexivity. Qed.
Lemma empty_into n st : expects (xe_state st) -> xe_empty n st = Ok (XEmit (xe_out st ++ [WStart n; WEnd]) (after (xe_state st))).
Proof. intros E. unfold xe_empty, xe_start. rewrite check_after by exact E. cbn [rbind]. unfold xe_put. cbn [xe_out xe_state]. repeat (rewrite <- app_assoc; cbn [app]). reflexivity. Qed.
Lemma c_str_twice s : c_str (c_str s) = c_str s.
Proof. induction s as [|c s IH]; [reflexivity|]. cbn [c_str]. destruct (aeqb c (bchr 0)) eqn:E; [reflexivity|]. cbn [c_str]. rewrite E, IH. reflexivity. Qed.
Section Write.
Context (text_ok : bytes -> bool).
Lemma xwrite v : bearable text_ok v -> forall st, expects (xe_state st) -> xe_calls 17 (emit_value v) st = Ok (XEmit (xe_out st ++ xouts 17 v) (after (xe_state st))).
Proof.
  assert (One : forall e st st', xe_call 17 e st = Ok st' -> xe_calls 17 [e] st = Ok st') by (intros e st st' H; cbn [xe_calls]; rewrite H; reflexivity).
  induction v as [|b|z|n|x|s|l IH|m IH|b] using value_ind'; intros L st E; cbn [emit_value xouts].
  - apply One. apply empty_into, E.
  - apply One. destruct b; apply empty_into, E.
  - apply One. apply text_into, E.
  - apply One. apply text_into, E.
  - apply One. apply text_into, E.
  - apply One. cbn [xe_call]. destruct st as [o [|[] s0]]; cbn in E; try contradiction; cbn [xe_state]; rewrite c_str_twice; apply text_into; exact Logic.I.
  - cbn [xe_calls xe_call]. unfold xe_start. rewrite check_after by exact E. cbn [rbind]. 
    assert (X : forall st, (exists s0, xe_state st = XList :: s0) -> xe_calls 17 (flat_map emit_value l) st = Ok (XEmit (xe_out st ++ flat_map (xouts 17) l) (xe_state st))).
    { clear st E. induction l as [|x l IHl]; intros st [s0 E]; [cbn [flat_map xe_calls]; rewrite app_nil_r; destruct st; reflexivity|]. cbn [flat_map]. destruct L as [Lx L]. inversion IH as [|? ? Hx IH']; subst.
      rewrite (xcalls_app _ _ _ _ _ (Hx Lx st ltac:(rewrite E; exact Logic.I))). rewrite IHl; [|auto|auto|cbn [xe_state]; rewrite E; cbn [after]; eauto]. cbn [xe_out xe_state]. rewrite <- app_assoc, E. reflexivity. }
    erewrite xcalls_app; [|apply X; eexists; reflexivity]. cbn [xe_calls xe_call rbind]. unfold xe_pop, xe_put, xe_push. cbn [xe_out xe_state rbind]. repeat (rewrite <- app_assoc; cbn [app]). reflexivity.
  - cbn [xe_calls xe_call]. unfold xe_start. rewrite check_after by exact E. cbn [rbind].
    assert (X : forall st, (exists s0, xe_state st = XKey :: s0) -> xe_calls 17 (flat_map (fun kv => EvStr (c_str (fst kv)) :: emit_value (snd kv)) m) st =
      Ok (XEmit (xe_out st ++ flat_map (fun kv => el KEY_NAME (c_str (fst kv)) ++ xouts 17 (snd kv)) m) (xe_state st))).
    { clear st E. induction m as [|[k x] m IHm]; intros st [s0 E]; [cbn [flat_map xe_calls]; rewrite app_nil_r; destruct st; reflexivity|]. cbn [flat_map fst snd]. destruct L as [[Lk Lx] L]. inversion IH as [|? ? Hx IH']; subst. cbn [fst snd] in *.
      cbn [app xe_calls xe_call]. rewrite E. unfold xe_text, xe_start. rewrite E. cbn [check_map_key rbind]. unfold xe_put. cbn [xe_out xe_state rbind]. rewrite c_str_twice.
      erewrite xcalls_app; [|apply (Hx Lx); exact Logic.I]. rewrite IHm; [|auto|auto|cbn [xe_state after]; eauto]. cbn [xe_out xe_state after]. unfold el. repeat (rewrite <- app_assoc; cbn [app]). reflexivity. }
    erewrite xcalls_app; [|apply X; eexists; reflexivity]. cbn [xe_calls xe_call rbind]. unfold xe_pop, xe_put, xe_push. cbn [xe_out xe_state rbind]. repeat (rewrite <- app_assoc; cbn [app]). reflexivity.
  - apply One. cbn [xe_call]. destruct L as (F & _ & L). destruct (blob_meaning b F) as [-> _]. cbn [rbind]. destruct (blob_size b L) as [S _].
    replace (_ <? _) with false by (symmetry; apply N.ltb_ge; exact S). rewrite c_str_id by apply blob_no_nul. apply text_into, E.
Qed.
End Write.

(** *** Reading *)
Definition oth (k : nat) : list xev := repeat XOther k.
Section Read.
Context (text_ok : bytes -> bool) (bad : bool).
Notation shown := (shown text_ok).
Notation run := (xp_run bad).

Lemma inv_empty o w0 x : shown o w0 x -> forall n w, w0 = WStart n :: WEnd :: w -> exists k x', x = oth k ++ XElem n true :: x' /\ shown o w x'.
Proof.
  induction 1 as [|o w0 x H IH|o n0 w0 x H IH|o n0 c w0 x C H IH|o n0 w0 x H IH|o w0 x H IH|o s w0 x Ne B H IH|o s w0 st x B T H IH]; intros n w E; try discriminate E.
  - destruct (IH n w E) as (k & x' & -> & Sh). exists (S k), x'. auto.
  - injection E as -> ->. exists 0%nat, x. auto.
  - injection E as -> E1 E2. congruence.
Qed.
Lemma inv_start o w0 x : shown o w0 x -> forall n c w, w0 = WStart n :: c :: w -> c <> WEnd -> exists k x', x = oth k ++ XElem n false :: x' /\ shown (n :: o) (c :: w) x'.
Proof.
  induction 1 as [|o w0 x H IH|o n0 w0 x H IH|o n0 c w0 x C H IH|o n0 w0 x H IH|o w0 x H IH|o s w0 x Ne B H IH|o s w0 st x B T H IH]; intros n c' w E N; try discriminate E.
  - destruct (IH n c' w E N) as (k & x' & -> & Sh). exists (S k), x'. auto.
  - injection E as -> E1 E2. congruence.
  - injection E as -> -> ->. exists 0%nat, x. auto.
Qed.
Lemma inv_end o w0 x : shown o w0 x -> forall n o' w, o = n :: o' -> w0 = WEnd :: w -> exists k x', x = oth k ++ XEnd n :: x' /\ shown o' w x'.
Proof.
  induction 1 as [|o w0 x H IH|o n0 w0 x H IH|o n0 c w0 x C H IH|o n0 w0 x H IH|o w0 x H IH|o s w0 x Ne B H IH|o s w0 st x B T H IH]; intros n o' w Eo E; try discriminate E.
  - destruct (IH n o' w Eo E) as (k & x' & -> & Sh). exists (S k), x'. auto.
  - injection E as ->. injection Eo as -> ->. exists 0%nat, x. auto.
Qed.
Lemma inv_text o w0 x : shown o w0 x -> forall s w, w0 = WText s :: w -> xml_blank s = false -> exists k stale x', x = oth k ++ XText stale s :: x' /\ shown o w x'.
Proof.
  induction 1 as [|o w0 x H IH|o n0 w0 x H IH|o n0 c w0 x C H IH|o n0 w0 x H IH|o w0 x H IH|o s w0 x Ne B H IH|o s w0 st x B T H IH]; intros s' w E N; try discriminate E.
  - destruct (IH s' w E N) as (k & stale & x' & -> & Sh). exists (S k), stale, x'. auto.
  - injection E as <- ->. discriminate N.
  - injection E as -> ->. congruence.
  - injection E as -> ->. exists 0%nat, st, x. auto.
Qed.
Lemma inv_nothing o w0 x : shown o w0 x -> forall w, w0 = WText [] :: w -> exists k x', x = oth k ++ x' /\ shown o w x'.
Proof.
  induction 1 as [|o w0 x H IH|o n0 w0 x H IH|o n0 c w0 x C H IH|o n0 w0 x H IH|o w0 x H IH|o s w0 x Ne B H IH|o s w0 st x B T H IH]; intros w E; try discriminate E.
  - destruct (IH w E) as (k & x' & -> & Sh). exists (S k), x'. auto.
  - injection E as ->. exists 0%nat, x. auto.
  - injection E as -> ->. congruence.
  - injection E as -> ->. discriminate B.
Qed.

(** States at the head of the outer loop from which the parser reads on. *)
Definition inner (n : xnode) : bool := match n with RootNode | MapNode | ListNode => true | _ => false end.
Lemma run_open p stk e b evs : inner p = true -> b_acts b <> [] -> run evs true (XPst (p :: stk) e b) = run evs false (XPst (p :: stk) e b).
Proof. intros I A. assert (H : xp_head (XPst (p :: stk) e b) = Ok (None, XPst (p :: stk) e b)). { unfold xp_head. cbn [xp_b xp_stack]. destruct (b_acts b); [contradiction|]. destruct p; try discriminate I; reflexivity. }
  destruct evs; cbn [xp_run]; rewrite H; reflexivity. Qed.
Lemma run_others k r st : run (oth k ++ r) false st = run r false st.
Proof. induction k as [|k IH]; [reflexivity|]. cbn [oth repeat app xp_run rbind xp_event negb]. exact IH. Qed.
Lemma run_step ev r st loop st' : b_acts (xp_b st) <> [] -> xp_event ev st = Ok (loop, st') -> run (ev :: r) false st = run r (negb loop) st'.
Proof. intros A H. cbn [xp_run rbind]. rewrite H. reflexivity. Qed.

Definition texty (n : xnode) : bool := match n with IntegerNode | FloatNode | StringNode | BlobNode | KeyNode => true | _ => false end.
Lemma el_run o n s w x stk e b (Q : bstate -> Prop) : shown o (el n s ++ w) x -> b_acts b <> [] -> texty (string_to_node n) = true ->
  (xml_blank s = false /\ (forall stale, exists b', process_text stale s (XPst (string_to_node n :: stk) true b) = Ok (XPst (string_to_node n :: stk) false b') /\ b_acts b' <> [] /\ Q b') \/
   s = [] /\ (string_to_node n = StringNode \/ string_to_node n = KeyNode) /\ exists b', build b (BScalar (VStr [])) = Ok b' /\ Q b') ->
  exists x' e' b', shown o w x' /\ Q b' /\ run x false (XPst stk e b) = run x' true (XPst stk e' b') /\ (List.length x' < List.length x)%nat.
Proof.
  intros H A T C. unfold el in H. cbn [app] in H. destruct (inv_start _ _ _ H n (WText s) (WEnd :: w) eq_refl ltac:(discriminate)) as (k1 & x1 & -> & H1). clear H. rewrite run_others.
  rewrite run_step with (loop := true) (st' := XPst (string_to_node n :: stk) true b); [|exact A|].
  2:{ unfold xp_event. cbn [xp_b]. destruct (b_acts b); [contradiction|]. unfold begin_element. cbn [xp_stack xp_b]. destruct (string_to_node n); try discriminate T; reflexivity. }
  cbn [negb]. destruct C as [[B P]|(-> & N & b' & P & Qb)].
  - destruct (inv_text _ _ _ H1 s (WEnd :: w) eq_refl B) as (k2 & stale & x2 & -> & H2). rewrite run_others. destruct (P stale) as (b' & E & A' & Qb).
    rewrite run_step with (loop := true) (st' := XPst (string_to_node n :: stk) false b'); [|exact A|].
    2:{ unfold xp_event. cbn [xp_b]. destruct (b_acts b); [contradiction|]. rewrite E. reflexivity. }
    cbn [negb]. destruct (inv_end _ _ _ H2 n o w eq_refl eq_refl) as (k3 & x3 & -> & H3). rewrite run_others.
    rewrite run_step with (loop := false) (st' := XPst stk false b'); [|exact A'|].
    2:{ unfold xp_event. cbn [xp_b]. destruct (b_acts b'); [contradiction|]. unfold end_element. cbn [xp_stack]. destruct (string_to_node n); try discriminate T; reflexivity. }
    exists x3, false, b'. split; [exact H3|]. split; [exact Qb|]. split; [reflexivity|]. repeat (rewrite app_length; cbn [List.length]). lia.
  - destruct (inv_nothing _ _ _ H1 (WEnd :: w) eq_refl) as (k2 & x2 & -> & H2). rewrite run_others.
    destruct (inv_end _ _ _ H2 n o w eq_refl eq_refl) as (k3 & x3 & -> & H3). rewrite run_others.
    rewrite run_step with (loop := false) (st' := XPst stk true b'); [|exact A|].
    2:{ unfold xp_event. cbn [xp_b]. destruct (b_acts b) eqn:Ab; [contradiction|]. unfold end_element. cbn [xp_stack]. unfold xp_call. cbn [xp_b xp_stack xp_empty]. destruct N as [->| ->]; cbn [xnode_eqb negb]; rewrite P; reflexivity. }
    exists x3, true, b'. split; [exact H3|]. split; [exact Qb|]. split; [reflexivity|]. repeat (rewrite app_length; cbn [List.length]). lia.
Qed.

(** The loop of ParseVariant, entered at the head or in the middle of Run. *)
Definition from (fuel : nat) (head : bool) (evs : list xev) (st : xpst) : res (list xev * xpst) :=
  match fuel with
  | O => Fuel
  | S fuel => do (ret, evs, st) <- run evs head st; if ((ret =? 0) && negb (b_done (xp_b st)))%bool then xp_loop bad fuel evs st else Ok (evs, st)
  end.
Lemma loop_from n x st : xp_loop bad n x st = from n true x st.
Proof. destruct n; reflexivity. Qed.
Lemma loop_open n p stk e b x : inner p = true -> b_acts b <> [] -> xp_loop bad n x (XPst (p :: stk) e b) = from n false x (XPst (p :: stk) e b).
Proof. intros I A. rewrite loop_from. destruct n; [reflexivity|]. unfold from. rewrite run_open by auto. reflexivity. Qed.
Definition leads (x : list xev) (st : xpst) (x' : list xev) (st' : xpst) : Prop :=
  exists k, (k + List.length x' <= List.length x)%nat /\ forall n, from (k + S n) false x st = xp_loop bad (S n) x' st'.
Lemma lead_run x st x' st' : run x false st = run x' true st' -> (List.length x' < List.length x)%nat -> leads x st x' st'.
Proof. intros E L. exists 0%nat. split; [lia|]. intros n. unfold from. cbn [Nat.add]. rewrite E. reflexivity. Qed.
Lemma lead_lead x st x' p stk e b x'' st'' : leads x st x' (XPst (p :: stk) e b) -> inner p = true -> b_acts b <> [] -> leads x' (XPst (p :: stk) e b) x'' st'' -> leads x st x'' st''.
Proof.
  intros (k & L & H) I A (k' & L' & H'). exists (k + k')%nat. split; [lia|]. intros n. replace (k + k' + S n)%nat with (k + S (k' + n))%nat by lia. rewrite H. rewrite loop_open by auto.
  replace (S (k' + n)) with (k' + S n)%nat by lia. apply H'.
Qed.
Lemma lead_step x st x1 st1 x' st' : run x false st = run x1 true st1 -> (List.length x1 <= List.length x)%nat ->
  (exists p stk e b, st1 = XPst (p :: stk) e b /\ inner p = true /\ b_acts b <> []) -> leads x1 st1 x' st' -> leads x st x' st'.
Proof.
  intros E L (p & stk & e & b & -> & I & A) (k & L' & H). exists k. split; [lia|]. intros n. rewrite <- H. unfold from. destruct (k + S n)%nat; [reflexivity|]. rewrite E, run_open by auto. reflexivity.
Qed.

(** Where a value is expected. *)
Definition ready (b : bstate) : Prop := b_done b = false /\ match b_acts b with ABase true _ :: _ | AMap false _ _ :: _ | AList _ :: _ => True | _ => False end.
Definition fresh (b : bstate) : Prop := b_done b = false /\ exists v, b_acts b = [ABase false v].
Definition quick (v : value) : Prop := match v with VNull | VBool _ | VList _ | VMap _ => True | VStr s => s = [] | _ => False end.
Definition fits (b : bstate) (v : value) : Prop := ready b \/ fresh b /\ quick v.
Definition took (v : value) (b : bstate) : bstate := match set_value v b with Ok b' => b' | _ => b end.
Lemma fits_acts b v : fits b v -> b_acts b <> [] /\ b_done b = false.
Proof. intros [[D R]|[[D (w & E)] _]]; (split; [|exact D]); [destruct (b_acts b); [contradiction|discriminate]|rewrite E; discriminate]. Qed.
Lemma took_ok b v w : fits b v -> set_value w b = Ok (took w b).
Proof.
  intros F. unfold took. destruct b as [acts r d]. destruct F as [[D R]|[[D (u & E)] _]]; cbn [b_acts b_done] in *; [|subst acts; reflexivity].
  destruct acts as [|[[] u|[] k m|l] acts]; try contradiction; reflexivity.
Qed.
Lemma ready_took b v : ready b -> b_acts (took v b) <> [] /\ b_done (took v b) = false.
Proof. intros [D R]. unfold took. destruct b as [[|[[] u|[] k m|l] acts] r d]; cbn in *; try contradiction; (split; [discriminate|exact D]). Qed.
Lemma build_scalar b v : b_acts b <> [] -> build b (BScalar v) = set_value v b.
Proof. intros A. unfold build. destruct (b_acts b); [contradiction|reflexivity]. Qed.

Lemma read_text_el n s o w x stk e b (v : value) (val : bool -> value) : shown o (el n s ++ w) x -> ready b -> texty (string_to_node n) = true -> xml_blank s = false ->
  (forall stale, process_text stale s (XPst (string_to_node n :: stk) true b) = xp_call (BScalar (val stale)) (XPst (string_to_node n :: stk) false b)) ->
  (forall stale, same v (val stale)) ->
  exists x' e' v', shown o w x' /\ same v v' /\ leads x (XPst stk e b) x' (XPst stk e' (took v' b)).
Proof.
  intros H R T B P S. assert (F := fits_acts b v (or_introl R)). destruct F as [A D].
  destruct (el_run o n s w x stk e b (fun b' => exists v', same v v' /\ b' = took v' b) H A T) as (x' & e' & b' & H' & (v' & Sv & ->) & E & L).
  - left. split; [exact B|]. intros stale. exists (took (val stale) b). split; [|split; [apply ready_took, R|eauto]]. rewrite P. unfold xp_call. cbn [xp_b]. rewrite build_scalar, (took_ok b v) by (auto; left; exact R). reflexivity.
  - exists x', e', v'. split; [exact H'|]. split; [exact Sv|]. apply lead_run; assumption.
Qed.
Lemma read_empty_el n o w x stk e b v : shown o (WStart n :: WEnd :: w) x -> fits b v ->
  (string_to_node n = NullNode /\ v = VNull \/ string_to_node n = TrueNode /\ v = VBool true \/ string_to_node n = FalseNode /\ v = VBool false) ->
  exists x', shown o w x' /\ leads x (XPst stk e b) x' (XPst stk e (took v b)).
Proof.
  intros H F C. destruct (fits_acts b v F) as [A D]. destruct (inv_empty _ _ _ H n w eq_refl) as (k & x' & -> & H'). exists x'. split; [exact H'|]. apply lead_run; [|rewrite app_length; cbn; lia].
  rewrite run_others. rewrite run_step with (loop := false) (st' := XPst stk e (took v b)); [reflexivity|exact A|]. unfold xp_event. cbn [xp_b]. destruct (b_acts b) eqn:Ab; [contradiction|].
  unfold begin_element, xp_call. cbn [xp_b xp_stack xp_empty negb]. assert (X : build b (BScalar v) = Ok (took v b)) by (rewrite build_scalar, (took_ok b v) by (auto; congruence); reflexivity).
  destruct C as [[-> ->]|[[-> ->]|[-> ->]]]; rewrite X; reflexivity.
Qed.

Lemma begin_run k n x1 stk e b a : string_to_node n = MapNode /\ a = AMap true [] [] \/ string_to_node n = ListNode /\ a = AList [] -> b_acts b <> [] ->
  run (oth k ++ XElem n false :: x1) false (XPst stk e b) = run x1 true (XPst (string_to_node n :: stk) e (BState (a :: b_acts b) (b_result b) (b_done b))).
Proof.
  intros C A. rewrite run_others. rewrite run_step with (loop := false) (st' := XPst (string_to_node n :: stk) e (BState (a :: b_acts b) (b_result b) (b_done b))); [reflexivity|exact A|].
  unfold xp_event. cbn [xp_b]. destruct (b_acts b) eqn:Ab; [contradiction|]. unfold begin_element, xp_call, build, xp_push. cbn [xp_b xp_stack xp_empty]. rewrite Ab. destruct C as [[-> ->]|[-> ->]]; reflexivity.
Qed.
Lemma end_run k n x1 stk e b a v : string_to_node n = MapNode /\ (exists q y m, a = AMap q y m /\ v = VMap m) \/ string_to_node n = ListNode /\ (exists l, a = AList l /\ v = VList l) -> (exists u, fits b u) ->
  run (oth k ++ XEnd n :: x1) false (XPst (string_to_node n :: stk) e (BState (a :: b_acts b) (b_result b) (b_done b))) = run x1 true (XPst stk e (took v b)).
Proof.
  intros C (u & F). rewrite run_others. rewrite run_step with (loop := false) (st' := XPst stk e (took v b)); [reflexivity|discriminate|].
  unfold xp_event. cbn [xp_b b_acts]. unfold end_element. cbn [xp_stack]. unfold xp_call. cbn [xp_b xp_stack xp_empty].
  assert (X := took_ok b u v F). replace (BState (b_acts b) (b_result b) (b_done b)) with b in * by (destruct b; reflexivity).
  destruct C as [[-> (q & y & m & -> & ->)]|[-> (l & -> & ->)]]; cbn [xnode_eqb negb build b_acts finish b_result b_done];
    replace (BState (b_acts b) (b_result b) (b_done b)) with b by (destruct b; reflexivity); rewrite X; reflexivity.
Qed.
Lemma empty_run n stk e b o w x v : shown o (WStart n :: WEnd :: w) x -> fits b v -> string_to_node n = MapNode /\ v = VMap [] \/ string_to_node n = ListNode /\ v = VList [] ->
  exists x', shown o w x' /\ (ready b -> leads x (XPst stk e b) x' (XPst stk e (took v b))) /\
  run x false (XPst stk e b) = Ok (0, x', XPst stk e (took v b)) /\ (List.length x' < List.length x)%nat.
Proof.
  intros H F C. destruct (fits_acts b v F) as [A D]. destruct (inv_empty _ _ _ H n w eq_refl) as (k & x' & -> & H'). exists x'. split; [exact H'|].
  assert (E : run (oth k ++ XElem n true :: x') false (XPst stk e b) = Ok (0, x', XPst stk e (took v b))).
  { assert (X := took_ok b v v F). rewrite run_others. destruct C as [[C ->]|[C ->]].
    - rewrite run_step with (loop := false) (st' := XPst (EmptyMapNode :: stk) e (BState (AMap true [] [] :: b_acts b) (b_result b) (b_done b))); [|exact A|].
      + destruct x'; cbn [negb xp_run]; unfold xp_head; cbn [xp_b b_acts xp_stack]; unfold xp_call; cbn [xp_b xp_stack xp_empty build b_acts finish b_result b_done];
        replace (BState (b_acts b) (b_result b) (b_done b)) with b by (destruct b; reflexivity); rewrite X; reflexivity.
      + unfold xp_event. cbn [xp_b]. destruct (b_acts b) eqn:Ab; [contradiction|]. unfold begin_element, xp_call, build, xp_push. cbn [xp_b xp_stack xp_empty]. rewrite Ab, C. reflexivity.
    - rewrite run_step with (loop := false) (st' := XPst (EmptyListNode :: stk) e (BState (AList [] :: b_acts b) (b_result b) (b_done b))); [|exact A|].
      + destruct x'; cbn [negb xp_run]; unfold xp_head; cbn [xp_b b_acts xp_stack]; unfold xp_call; cbn [xp_b xp_stack xp_empty build b_acts finish b_result b_done];
        replace (BState (b_acts b) (b_result b) (b_done b)) with b by (destruct b; reflexivity); rewrite X; reflexivity.
      + unfold xp_event. cbn [xp_b]. destruct (b_acts b) eqn:Ab; [contradiction|]. unfold begin_element, xp_call, build, xp_push. cbn [xp_b xp_stack xp_empty]. rewrite Ab, C. reflexivity. }
  split; [|split; [exact E|rewrite app_length; cbn; lia]]. intros R. exists 1%nat. split; [rewrite app_length; cbn; lia|]. intros i. cbn [Nat.add]. unfold from. rewrite E. cbn [rbind xp_b]. rewrite (proj2 (ready_took b v R)). reflexivity.
Qed.

Lemma fresh_took b v : fresh b -> took v b = BState [] v true.
Proof. intros [_ (u & E)]. unfold took, set_value. rewrite E. reflexivity. Qed.
Lemma loop_done n x stk e v : xp_loop bad (S n) x (XPst stk e (BState [] v true)) = Ok (x, XPst stk e (BState [] v true)).
Proof. cbn [xp_loop]. destruct x; reflexivity. Qed.
Lemma empty_leads n stk e b o w x v : shown o (WStart n :: WEnd :: w) x -> fits b v -> string_to_node n = MapNode /\ v = VMap [] \/ string_to_node n = ListNode /\ v = VList [] ->
  exists x', shown o w x' /\ leads x (XPst stk e b) x' (XPst stk e (took v b)).
Proof.
  intros H F C. destruct (empty_run n stk e b o w x v H F C) as (x' & H' & R & E & L). exists x'. split; [exact H'|]. destruct F as [F|[F _]]; [apply R, F|].
  exists 0%nat. split; [lia|]. intros i. cbn [Nat.add]. unfold from. rewrite E. cbn [rbind xp_b]. rewrite (fresh_took b v F). cbn [b_done negb]. rewrite andb_false_r, loop_done. reflexivity.
Qed.
Lemma xouts_head v : exists n w, xouts 17 v = WStart n :: w.
Proof. destruct v; cbn [xouts]; unfold el; eauto. Qed.
Lemma took_list l acts r d v : took v (BState (AList l :: acts) r d) = BState (AList (l ++ [v]) :: acts) r d.
Proof. reflexivity. Qed.
Lemma took_map k m acts r d v : took v (BState (AMap false k m :: acts) r d) = BState (AMap true k (mset k v m) :: acts) r d.
Proof. reflexivity. Qed.

Lemma read_back v : vok v -> bearable text_ok v -> forall o w x stk e b, shown o (xouts 17 v ++ w) x -> fits b v ->
  exists x' e' v', shown o w x' /\ same v v' /\ leads x (XPst stk e b) x' (XPst stk e' (took v' b)).
Proof.
  assert (Asc : forall s, bare s -> xml_blank s = false) by (intros s B; apply bare_xml, B).
  induction v as [|b|z|n|f|s|l IH|m IH|bl] using value_ind'; intros V L o w x stk e b0 H F; cbn [xouts] in H.
  - destruct (read_empty_el NULL_NAME o w x stk e b0 VNull H F) as (x' & H' & Le); [left; split; reflexivity|]. exists x', e, VNull. split; [exact H'|]. split; [constructor|exact Le].
  - destruct (read_empty_el (if b then TRUE_NAME else FALSE_NAME) o w x stk e b0 (VBool b) H F) as (x' & H' & Le); [right; destruct b; [left|right]; split; reflexivity|].
    exists x', e, (VBool b). split; [exact H'|]. split; [constructor|exact Le].
  - destruct F as [F|[_ []]]. apply (read_text_el INTEGER_NAME (dec_of_Z z) o w x stk e b0 _ (fun stale => xml_int stale (dec_of_Z z)) H F); [reflexivity|apply Asc, bare_int|reflexivity|].
    intros stale. cbn in V. eapply SInt; [reflexivity|]. apply whole_same, xml_int_back. lia.
  - destruct F as [F|[_ []]]. rewrite <- dec_of_Z_of_N in H. apply (read_text_el INTEGER_NAME _ o w x stk e b0 _ (fun stale => xml_int stale (dec_of_Z (Z.of_N n))) H F); [reflexivity|apply Asc, bare_int|reflexivity|].
    intros stale. cbn in V. eapply SInt; [reflexivity|]. apply whole_same, xml_int_back. lia.
  - destruct F as [F|[_ []]]. destruct L as (y & Dy & ->). rewrite FloatProofs.d_of_ld_of_d in H by exact Dy. change (Z.of_N 17) with 17%Z in H.
    apply (read_text_el FLOAT_NAME _ o w x stk e b0 _ (fun _ => VFlt (ld_of_d y)) H F); [reflexivity|apply Asc, bare_print| |intros; constructor].
    intros stale. cbn [process_text xp_stack]. change (string_to_node FLOAT_NAME) with FloatNode. cbv iota. rewrite xml_float_back by exact Dy. reflexivity.
  - destruct L as [N L]. rewrite c_str_id in H by exact N. destruct L as [->|[B _]].
    + destruct (fits_acts _ _ F) as [A D]. destruct (el_run o STRING_NAME [] w x stk e b0 (fun b' => b' = took (VStr []) b0) H A eq_refl) as (x' & e' & b' & H' & -> & E & Ln).
      * right. split; [reflexivity|]. split; [left; reflexivity|]. exists (took (VStr []) b0). split; [|reflexivity]. rewrite build_scalar by exact A. apply (took_ok b0 _ _ F).
      * exists x', e', (VStr []). split; [exact H'|]. split; [constructor|]. apply lead_run; assumption.
    + destruct F as [F|[_ ->]]; [|discriminate B]. apply (read_text_el STRING_NAME s o w x stk e b0 _ (fun _ => VStr s) H F); [reflexivity|exact B|reflexivity|constructor].
  - destruct l as [|v1 l1].
    + cbn [flat_map app] in H. destruct (empty_leads LIST_NAME stk e b0 o w x (VList []) H F) as (x' & H' & Le); [right; split; reflexivity|]. exists x', e, (VList []). split; [exact H'|]. split; [constructor; constructor|exact Le].
    + destruct (fits_acts _ _ F) as [A D]. remember (v1 :: l1) as l eqn:El.
      assert (X : exists c w', flat_map (xouts 17) l ++ [WEnd] ++ w = c :: w' /\ c <> WEnd). { subst l. destruct (xouts_head v1) as (n & w' & E). cbn [flat_map]. rewrite E. cbn [app]. do 2 eexists. split; [reflexivity|discriminate]. }
      destruct X as (c & w' & Ec & Nc). cbn [app] in H. rewrite <- app_assoc in H. rewrite Ec in H. destruct (inv_start _ _ _ H LIST_NAME c w' eq_refl Nc) as (k & x1 & -> & H1). rewrite <- Ec in H1. clear El Ec Nc H.
      assert (B := begin_run k LIST_NAME x1 stk e b0 (AList []) (or_intror (conj eq_refl eq_refl)) A). change (string_to_node LIST_NAME) with ListNode in B.
      assert (Y : forall acc x1 e1, shown (LIST_NAME :: o) (flat_map (xouts 17) l ++ [WEnd] ++ w) x1 -> exists x2 e2 vs, shown o w x2 /\ Forall2 same l vs /\
        leads x1 (XPst (ListNode :: stk) e1 (BState (AList acc :: b_acts b0) (b_result b0) (b_done b0))) x2 (XPst stk e2 (took (VList (acc ++ vs)) b0))).
      { clear x1 B H1. induction l as [|v l IHl]; intros acc x1 e1 H1.
        - cbn [flat_map app] in H1. destruct (inv_end _ _ _ H1 LIST_NAME o w eq_refl eq_refl) as (k2 & x2 & -> & H2). exists x2, e1, []. split; [exact H2|]. split; [constructor|].
          rewrite app_nil_r. apply lead_run; [|rewrite app_length; cbn; lia]. apply (end_run k2 LIST_NAME x2 stk e1 b0 (AList acc) (VList acc)); [right; split; [reflexivity|eauto]|eauto].
        - cbn [flat_map] in H1. rewrite <- app_assoc in H1. inversion IH as [|? ? Hv IH']; subst. destruct V as [Vv V], L as [Lv L].
          set (b1 := BState (AList acc :: b_acts b0) (b_result b0) (b_done b0)). assert (R1 : ready b1) by (split; [exact D|exact Logic.I]).
          destruct (Hv Vv Lv _ _ _ (ListNode :: stk) e1 b1 H1 (or_introl R1)) as (x2 & e2 & v' & H2 & Sv & Le).
          assert (Fl : fits b0 (VList l)) by (destruct F as [F|[F _]]; [left; exact F|right; split; [exact F|exact Logic.I]]).
          destruct (IHl IH' V L Fl (acc ++ [v']) x2 e2 H2) as (x3 & e3 & vs & H3 & Svs & Le3). exists x3, e3, (v' :: vs). split; [exact H3|]. split; [constructor; assumption|].
          unfold b1 in Le. rewrite took_list in Le. rewrite <- app_assoc in Le3. cbn [app] in Le3. eapply lead_lead; [exact Le|reflexivity|discriminate|exact Le3]. }
      destruct (Y [] x1 e H1) as (x2 & e2 & vs & H2 & Svs & Le). exists x2, e2, (VList vs). split; [exact H2|]. split; [constructor; exact Svs|].
      eapply lead_step; [exact B|rewrite app_length; cbn; lia| |exact Le]. do 4 eexists. split; [reflexivity|]. split; [reflexivity|discriminate].
  - destruct V as [Vs V]. assert (Em : m = [] \/ exists k1 v1 m1, m = (k1, v1) :: m1) by (destruct m as [|[? ?] ?]; eauto). destruct Em as [->|(k1 & v1 & m1 & Em)].
    + cbn [flat_map app] in H. destruct (empty_leads MAP_NAME stk e b0 o w x (VMap []) H F) as (x' & H' & Le); [left; split; reflexivity|]. exists x', e, (VMap []). split; [exact H'|]. split; [constructor; constructor|exact Le].
    + destruct (fits_acts _ _ F) as [A D].
      assert (X : exists c w', flat_map (fun kv => el KEY_NAME (c_str (fst kv)) ++ xouts 17 (snd kv)) m ++ [WEnd] ++ w = c :: w' /\ c <> WEnd). { subst m. cbn [flat_map]. unfold el at 1. cbn [app]. do 2 eexists. split; [reflexivity|discriminate]. }
      destruct X as (c & w' & Ec & Nc). cbn [app] in H. rewrite <- app_assoc in H. rewrite Ec in H. destruct (inv_start _ _ _ H MAP_NAME c w' eq_refl Nc) as (k & x1 & -> & H1). rewrite <- Ec in H1. clear Em Ec Nc H.
      assert (B := begin_run k MAP_NAME x1 stk e b0 (AMap true [] []) (or_introl (conj eq_refl eq_refl)) A). change (string_to_node MAP_NAME) with MapNode in B.
      assert (Y : forall acc y x1 e1, shown (MAP_NAME :: o) (flat_map (fun kv => el KEY_NAME (c_str (fst kv)) ++ xouts 17 (snd kv)) m ++ [WEnd] ++ w) x1 -> msorted (acc ++ m) ->
        exists x2 e2 ps, shown o w x2 /\ Forall2 (fun kv kv' => fst kv = fst kv' /\ same (snd kv) (snd kv')) m ps /\
        leads x1 (XPst (MapNode :: stk) e1 (BState (AMap true y acc :: b_acts b0) (b_result b0) (b_done b0))) x2 (XPst stk e2 (took (VMap (acc ++ ps)) b0))).
      { clear x1 B H1 Vs. induction m as [|[key v] m IHm]; intros acc y x1 e1 H1 So.
        - cbn [flat_map app] in H1. destruct (inv_end _ _ _ H1 MAP_NAME o w eq_refl eq_refl) as (k2 & x2 & -> & H2). exists x2, e1, []. split; [exact H2|]. split; [constructor|].
          rewrite app_nil_r. apply lead_run; [|rewrite app_length; cbn; lia]. apply (end_run k2 MAP_NAME x2 stk e1 b0 (AMap true y acc) (VMap acc)); [left; split; [reflexivity|eauto]|eauto].
        - cbn [flat_map fst snd] in H1. rewrite <- !app_assoc in H1. inversion IH as [|? ? Hv IH']; subst. destruct V as [Vv V], L as [[Lk Lv] L]. cbn [fst snd] in *.
          destruct Lk as [Nk Lk]. rewrite c_str_id in H1 by exact Nk.
          set (bk := BState (AMap true y acc :: b_acts b0) (b_result b0) (b_done b0)). set (bv := BState (AMap false key acc :: b_acts b0) (b_result b0) (b_done b0)).
          destruct (el_run (MAP_NAME :: o) KEY_NAME key _ x1 (MapNode :: stk) e1 bk (fun b' => b' = bv) H1 ltac:(discriminate) eq_refl) as (x2 & e2 & b' & H2 & -> & E2 & L2).
          { destruct Lk as [->|[Bk _]]; [right|left].
            - split; [reflexivity|]. split; [right; reflexivity|]. exists bv. split; reflexivity.
            - split; [exact Bk|]. intros stale. exists bv. split; [reflexivity|]. split; [discriminate|reflexivity]. }
          assert (R1 : ready bv) by (split; [exact D|exact Logic.I]).
          destruct (Hv Vv Lv _ _ _ (MapNode :: stk) e2 bv H2 (or_introl R1)) as (x3 & e3 & v' & H3 & Sv & Le).
          assert (Fl : fits b0 (VMap m)) by (destruct F as [F|[F _]]; [left; exact F|right; split; [exact F|exact Logic.I]]).
          assert (Kl : forall k', In k' (mkeys acc) -> bcmp k' key = Lt).
          { clear - So. induction acc as [|[a u] acc IH]; [intros k' []|]. cbn [app msorted] in So. destruct So as [S1 S2]. cbn [mkeys List.map fst]. intros k' [<-|I]; [|apply IH; auto].
            apply S1. unfold mkeys. rewrite map_app. apply in_or_app. right. left. reflexivity. }
          unfold bv in Le. rewrite took_map, mset_last in Le by exact Kl.
          assert (So' : msorted ((acc ++ [(key, v')]) ++ m)) by (apply (sorted_keys (acc ++ (key, v) :: m)); [rewrite <- app_assoc, !map_app; reflexivity|exact So]).
          destruct (IHm IH' V L Fl (acc ++ [(key, v')]) key x3 e3 H3 So') as (x4 & e4 & ps & H4 & Sps & Le4). exists x4, e4, ((key, v') :: ps). split; [exact H4|]. split; [constructor; [split; [reflexivity|exact Sv]|exact Sps]|].
          rewrite <- app_assoc in Le4. cbn [app] in Le4. eapply lead_step; [exact E2|lia|do 4 eexists; split; [reflexivity|split; [reflexivity|discriminate]]|].
          eapply lead_lead; [exact Le|reflexivity|discriminate|exact Le4]. }
      destruct (Y [] [] x1 e H1 Vs) as (x2 & e2 & ps & H2 & Sps & Le). exists x2, e2, (VMap ps). split; [exact H2|]. split; [constructor; exact Sps|].
      eapply lead_step; [exact B|rewrite app_length; cbn; lia| |exact Le]. do 4 eexists. split; [reflexivity|]. split; [reflexivity|discriminate].
  - destruct F as [F|[_ []]]. destruct L as (Fb & Nb & Lb). apply (read_text_el BLOB_NAME (blob_text bl) o w x stk e b0 _ (fun _ => VBlob [List.concat bl]) H F); [reflexivity|apply blob_solid; auto| |].
    + intros stale. cbn [process_text xp_stack]. change (string_to_node BLOB_NAME) with BlobNode. cbv iota. rewrite xml_blob_back by auto. reflexivity.
    + intros stale. constructor. cbn. rewrite app_nil_r. reflexivity.
Qed.

(** A whole text, with the root element and without. *)
Lemma parse_plain v x : vok v -> bearable text_ok v -> quick v -> shown [] (xouts 17 v) x -> exists v' q, xr_parse (xr_new x bad) = Ok (v', q) /\ same v v'.
Proof.
  intros V L Q H. rewrite <- (app_nil_r (xouts 17 v)) in H. assert (F : fresh b_new) by (split; [reflexivity|exists VNull; reflexivity]).
  destruct (read_back v V L [] [] x [EndState] false b_new H (or_intror (conj F Q))) as (x' & e' & v' & _ & Sv & (k & Lk & E)).
  exists v', (XParser x' bad [EndState] e'). split; [|exact Sv]. unfold xr_parse, xr_new. cbn [xr_events xr_bad xr_stack xr_empty].
  assert (X : xp_loop bad (S (S (List.length x))) x (XPst [StartState] false b_new) = from (S (S (List.length x))) false x (XPst [EndState] false b_new)) by (destruct x; reflexivity).
  rewrite X. assert (Y : exists i, S (S (List.length x)) = (k + S i)%nat) by (exists (S (List.length x) - k)%nat; lia). destruct Y as [i ->]. rewrite E, (fresh_took b_new v' F), loop_done. reflexivity.
Qed.
Lemma parse_document v x : vok v -> bearable text_ok v -> shown [] (WStart ROOT_NAME :: xouts 17 v ++ [WEnd]) x -> exists v' q, xr_parse (xr_new x bad) = Ok (v', q) /\ same v v'.
Proof.
  intros V L H. assert (X : exists c w', xouts 17 v ++ [WEnd] = c :: w' /\ c <> WEnd). { destruct (xouts_head v) as (n & w' & ->). cbn [app]. do 2 eexists. split; [reflexivity|discriminate]. }
  destruct X as (c & w' & Ec & Nc). rewrite Ec in H. destruct (inv_start _ _ _ H ROOT_NAME c w' eq_refl Nc) as (k & x1 & -> & H1). rewrite <- Ec in H1. clear H Ec.
  set (b := BState [ABase true VNull] VNull false). assert (R : ready b) by (split; [reflexivity|exact Logic.I]).
  destruct (read_back v V L [ROOT_NAME] [WEnd] x1 [RootNode; EndState] false b H1 (or_introl R)) as (x2 & e2 & v' & H2 & Sv & (i & Li & E)).
  destruct (inv_end _ _ _ H2 ROOT_NAME [] [] eq_refl eq_refl) as (k2 & x3 & -> & H3).
  exists v', (XParser x3 bad [EndState] e2). split; [|exact Sv]. unfold xr_parse, xr_new. cbn [xr_events xr_bad xr_stack xr_empty].
  assert (X : forall n y, xp_loop bad n (oth k ++ XElem ROOT_NAME false :: y) (XPst [StartState] false b_new) = from n false y (XPst [RootNode; EndState] false b)).
  { intros [|n] y; [reflexivity|]. unfold from. rewrite loop_from. unfold from. replace (run (oth k ++ XElem ROOT_NAME false :: y) true (XPst [StartState] false b_new)) with (run (oth k ++ XElem ROOT_NAME false :: y) false (XPst [EndState] false b_new)) by (destruct k; reflexivity).
    rewrite run_others, run_step with (loop := true) (st' := XPst [RootNode; EndState] false b) by (discriminate || reflexivity). reflexivity. }
  rewrite X. assert (Y : exists n, S (S (List.length (oth k ++ XElem ROOT_NAME false :: x1))) = (i + S n)%nat) by (assert (Z : (List.length x1 < List.length (oth k ++ XElem ROOT_NAME false :: x1))%nat) by (rewrite app_length; cbn [List.length]; lia); exists (S (List.length (oth k ++ XElem ROOT_NAME false :: x1)) - i)%nat; lia).
  destruct Y as [n ->]. rewrite E. change (took v' b) with (BState [ABase true v'] VNull false). rewrite loop_open by (reflexivity || discriminate). unfold from.
  rewrite run_others, run_step with (loop := false) (st' := XPst [EndState] e2 (BState [] v' true)) by (discriminate || reflexivity).
  replace (run x3 (negb false) (XPst [EndState] e2 (BState [] v' true))) with (Ok (0, x3, XPst [EndState] e2 (BState [] v' true))) by (destruct x3; reflexivity). reflexivity.
Qed.
End Read.

(** *** What libxml2 carries is reported *)
Lemma text_shown text_ok n s o w x : s = [] \/ xml_blank s = false /\ text_ok s = true -> shown text_ok o w x -> exists x', shown text_ok o (el n s ++ w) x'.
Proof.
  intros C H. unfold el. cbn [app]. destruct C as [->|[B T]].
  - exists (XElem n false :: XEnd n :: x). apply sh_start; [discriminate|]. apply sh_nothing, sh_end, H.
  - exists (XElem n false :: XText false s :: XEnd n :: x). apply sh_start; [discriminate|]. apply sh_text; [exact B|exact T|]. apply sh_end, H.
Qed.
Lemma shown_value text_ok v : takes_print text_ok -> bearable text_ok v -> forall o w x, shown text_ok o w x -> exists x', shown text_ok o (xouts 17 v ++ w) x'.
Proof.
  intros TP. induction v as [|b|z|n|f|s|l IH|m IH|bl] using value_ind'; intros L o w x H; cbn [xouts].
  - eexists. apply sh_empty, H.
  - eexists. apply sh_empty, H.
  - eapply text_shown; [|exact H]. right. split; [apply bare_xml, bare_int|apply TP, bare_xml, bare_int].
  - rewrite <- dec_of_Z_of_N. eapply text_shown; [|exact H]. right. split; [apply bare_xml, bare_int|apply TP, bare_xml, bare_int].
  - destruct L as (y & Dy & ->). rewrite FloatProofs.d_of_ld_of_d by exact Dy. eapply text_shown; [|exact H]. right. split; [apply bare_xml, bare_print|apply TP, bare_xml, bare_print].
  - destruct L as [N L]. rewrite c_str_id by exact N. eapply text_shown; [exact L|exact H].
  - assert (X : forall o x, shown text_ok (LIST_NAME :: o) (WEnd :: w) x -> exists x', shown text_ok (LIST_NAME :: o) (flat_map (xouts 17) l ++ WEnd :: w) x').
    { clear o x H. intros o x H. induction l as [|v l IHl]; [exists x; exact H|]. inversion IH as [|? ? Hv IH']; subst. destruct L as [Lv L]. destruct (IHl IH' L) as [x' H']. cbn [flat_map]. rewrite <- app_assoc. apply (Hv Lv _ _ _ H'). }
    cbn [app]. rewrite <- app_assoc. cbn [app]. destruct l as [|v l]; [eexists; apply sh_empty, H|]. destruct (X o (XEnd LIST_NAME :: x) (sh_end _ _ _ _ _ H)) as [x' H'].
    cbn [flat_map] in *. destruct (xouts_head v) as (n & w' & E). rewrite E in *. cbn [app] in *. eexists. apply sh_start; [discriminate|exact H'].
  - assert (X : forall o x, shown text_ok (MAP_NAME :: o) (WEnd :: w) x -> exists x', shown text_ok (MAP_NAME :: o) (flat_map (fun kv => el KEY_NAME (c_str (fst kv)) ++ xouts 17 (snd kv)) m ++ WEnd :: w) x').
    { clear o x H. intros o x H. induction m as [|[k v] m IHm]; [exists x; exact H|]. inversion IH as [|? ? Hv IH']; subst. destruct L as [[[Nk Lk] Lv] L]. destruct (IHm IH' L) as [x' H']. cbn [flat_map fst snd] in *. rewrite <- !app_assoc.
      destruct (Hv Lv _ _ _ H') as [x2 H2]. rewrite c_str_id by exact Nk. eapply text_shown; [exact Lk|exact H2]. }
    cbn [app]. rewrite <- app_assoc. cbn [app]. destruct m as [|[k v] m]; [eexists; apply sh_empty, H|]. destruct (X o (XEnd MAP_NAME :: x) (sh_end _ _ _ _ _ H)) as [x' H'].
    cbn [flat_map] in *. unfold el in *. cbn [app] in *. eexists. apply sh_start; [discriminate|exact H'].
  - destruct L as (Fb & Nb & Lb). eapply text_shown; [|exact H]. right. split; [apply blob_solid; auto|apply TP, blob_print].
Qed.

(** ** The theorems *)
(** A Variant as the value of the root element, as Emitter writes it between BeginDocument and EndDocument: the calls
    succeed, libxml2 can carry them, and whatever the reader reports of them is read back as the same Variant. *)
Theorem C51_document_partial text_ok v : takes_print text_ok -> vok v -> bearable text_ok v -> exists calls,
  xml_calls xml_default (EvBeginDoc :: emit_value v ++ [EvEndDoc]) = Ok calls /\ (exists back, shown text_ok [] calls back) /\
  forall bad back, shown text_ok [] calls back -> exists v' q, xr_parse (xr_new back bad) = Ok (v', q) /\ same v v'.
Proof.
  intros TP V L. exists (WStart ROOT_NAME :: xouts 17 v ++ [WEnd]). split; [|split].
  - unfold xml_calls, xml_default. cbn [xe_calls xe_call]. unfold xe_start. cbn [check_map_key xe_state xe_new rbind xe_out app]. erewrite xcalls_app; [|apply (xwrite text_ok v L); exact Logic.I]. reflexivity.
  - destruct (shown_value text_ok v TP L [ROOT_NAME] [WEnd] [XEnd ROOT_NAME] (sh_end _ _ _ _ _ (sh_nil _))) as [x H]. destruct (xouts_head v) as (n & w & E). rewrite E in *. cbn [app] in *. eexists. apply sh_start; [discriminate|exact H].
  - intros bad back H. apply (parse_document text_ok bad v back V L H).
Qed.
Print Assumptions C51_document_partial.

(** The same for what Serialize writes, which has no root element, when the Variant is a map, a list, null, a bool or "". *)
Theorem C51_serialize_partial text_ok v : takes_print text_ok -> vok v -> bearable text_ok v ->
  match v with VNull | VBool _ | VList _ | VMap _ => True | VStr s => s = [] | _ => False end -> exists calls,
  xml_calls xml_default (emit_value v) = Ok calls /\ (exists back, shown text_ok [] calls back) /\
  forall bad back, shown text_ok [] calls back -> exists v' q, xr_parse (xr_new back bad) = Ok (v', q) /\ same v v'.
Proof.
  intros TP V L Q. exists (xouts 17 v). split; [|split].
  - unfold xml_calls, xml_default. rewrite (xwrite text_ok v L) by exact Logic.I. reflexivity.
  - destruct (shown_value text_ok v TP L [] [] [] (sh_nil _)) as [x H]. rewrite app_nil_r in H. eauto.
  - intros bad back H. apply (parse_plain text_ok bad v back V L Q H).
Qed.
Print Assumptions C51_serialize_partial.

(** *** Cases *)
(** The shortest report of these calls. *)
Fixpoint report (text_ok : bytes -> bool) (open : list bytes) (w : list wcall) : option (list xev) :=
  match w with
  | [] => match open with [] => Some [] | _ => None end
  | WStart n :: t =>
      match t with
      | WEnd :: t' => option_map (cons (XElem n true)) (report text_ok open t')
      | _ :: _ => option_map (cons (XElem n false)) (report text_ok (n :: open) t)
      | [] => None
      end
  | WEnd :: t => match open with n :: o => option_map (cons (XEnd n)) (report text_ok o t) | [] => None end
  | WText s :: t =>
      match s with
      | [] => report text_ok open t
      | _ => if xml_blank s then option_map (cons XOther) (report text_ok open t)
             else if text_ok s then option_map (cons (XText false s)) (report text_ok open t) else None
      end
  end.
Lemma report_shown text_ok : forall n w o x, (List.length w <= n)%nat -> report text_ok o w = Some x -> shown text_ok o w x.
Proof.
  induction n as [|n IH]; intros w o x Ln H.
  - destruct w; [|cbn in Ln; lia]. destruct o; [|discriminate]. injection H as <-. constructor.
  - assert (St : forall e w' o', (List.length w' <= n)%nat -> option_map (cons e) (report text_ok o' w') = Some x -> exists x', x = e :: x' /\ shown text_ok o' w' x').
    { intros e w' o' L' H'. destruct (report text_ok o' w') as [x'|] eqn:R; [|discriminate]. injection H' as <-. eauto. }
    destruct w as [|[m|s|] t]; [destruct o; [injection H as <-; constructor|discriminate]| | |]; cbn [List.length] in Ln.
    + destruct t as [|c t]; [discriminate|]. cbn [report] in H. assert (D : c = WEnd \/ c <> WEnd) by (destruct c; auto; right; discriminate). destruct D as [->|D].
      * destruct (St _ t o ltac:(cbn [List.length] in Ln; lia) H) as (x' & -> & Sh). constructor. exact Sh.
      * destruct (St (XElem m false) (c :: t) (m :: o) ltac:(cbn [List.length] in *; lia)) as (x' & -> & Sh); [destruct c; [exact H|exact H|congruence]|]. constructor; assumption.
    + cbn [report] in H. destruct s as [|c s]; [constructor; apply IH; [lia|exact H]|]. destruct (xml_blank (c :: s)) eqn:B.
      * destruct (St _ t o ltac:(lia) H) as (x' & -> & Sh). constructor; [discriminate|exact B|exact Sh].
      * destruct (text_ok (c :: s)) eqn:T; [|discriminate]. destruct (St _ t o ltac:(lia) H) as (x' & -> & Sh). constructor; assumption.
    + cbn [report] in H. destruct o as [|m o]; [discriminate|]. destruct (St _ t o ltac:(lia) H) as (x' & -> & Sh). constructor. exact Sh.
Qed.
(** Seven-bit characters of XML. *)
Definition xml_ascii (s : bytes) : bool := forallb (fun c => (32 <=? bval c) && (bval c <? 128) || existsb (N.eqb (bval c)) [9; 10; 13])%bool s.
Lemma xml_ascii_print : takes_print xml_ascii.
Proof.
  intros s H. unfold xml_ascii. rewrite forallb_forall in *. intros c I. specialize (H c I). cbv beta in H. apply orb_true_iff in H. apply orb_true_iff. destruct H as [H|H].
  - left. apply andb_true_iff in H. destruct H as [H1 H2]. rewrite H1. apply N.ltb_lt in H2. apply N.ltb_lt. lia.
  - right. cbn [existsb]. rewrite H. rewrite orb_true_r. reflexivity.
Qed.
Definition case_x : value :=
  VMap [(s2b "", VList [VNull; VBool true; VInt (-7); VUns 18446744073709551615; VList []; VMap []]); (s2b "b", VBlob [s2b "ab"; s2b "c"]);
        (s2b "f", VFlt (ld_of_d (S754_finite false 4503599627370497 (-52)))); (s2b "s", VStr (s2b " <a> & b ")); (s2b "t", VStr (s2b ""))].
Example C51_case : takes_print xml_ascii /\ vok case_x /\ bearable xml_ascii case_x /\
  exists calls back, xml_calls xml_default (emit_value case_x) = Ok calls /\ shown xml_ascii [] calls back /\
  exists q, xr_parse (xr_new back false) = Ok (VMap [(s2b "", VList [VNull; VBool true; VInt (-7); VUns 18446744073709551615; VList []; VMap []]); (s2b "b", VBlob [s2b "abc"]);
        (s2b "f", VFlt (ld_of_d (S754_finite false 4503599627370497 (-52)))); (s2b "s", VStr (s2b " <a> & b ")); (s2b "t", VStr (s2b ""))], q).
Proof.
  assert (T : forall s, existsb (fun c => bval c =? 0) s = false -> (s = [] \/ xml_blank s = false /\ xml_ascii s = true) -> carried xml_ascii s).
  { intros s N A. split; [|exact A]. intros I. assert (E : existsb (fun c => bval c =? 0) s = true) by (apply existsb_exists; exists (bchr 0); auto). congruence. }
  split; [exact xml_ascii_print|]. split; [|split].
  - split; [repeat split; cbn; intros k I; intuition (subst; reflexivity)|]. cbn; repeat split; try lia; try reflexivity; repeat constructor.
  - cbn [bearable case_x]. cbn [fst snd].
    split; [split; [apply T; [reflexivity|left; reflexivity]|repeat split]|].
    split; [split; [apply T; [reflexivity|right; split; vm_compute; reflexivity]|split; [repeat constructor; discriminate|split; [discriminate|reflexivity]]]|].
    split; [split; [apply T; [reflexivity|right; split; vm_compute; reflexivity]|eexists; split; [|reflexivity]; reflexivity]|].
    split; [split; [apply T; [reflexivity|right; split; vm_compute; reflexivity]|apply T; [reflexivity|right; split; vm_compute; reflexivity]]|].
    split; [split; [apply T; [reflexivity|right; split; vm_compute; reflexivity]|apply T; [reflexivity|left; reflexivity]]|exact Logic.I].
  - destruct (xml_calls xml_default (emit_value case_x)) as [calls| | | |] eqn:E; vm_compute in E; try discriminate E. exists calls.
    destruct (report xml_ascii [] calls) as [back|] eqn:R; injection E as <-; vm_compute in R; [|discriminate R]. exists back. split; [reflexivity|]. split; [|injection R as <-; eexists; vm_compute; reflexivity].
    eapply report_shown; [apply le_n|]. rewrite <- R. vm_compute. reflexivity.
Qed.

(** ** Where it fails *)
(** What is written for [v], and what is read of the shortest report of it. *)
Definition xml_there_and_back (es : list eev) : option (res value) :=
  match xml_calls xml_default es with
  | Ok calls => option_map (fun back => do (v, q) <- xr_parse (xr_new back false); Ok v) (report xml_ascii [] calls)
  | _ => None
  end.

(** What Serialize writes for a number, a text that is not empty or a blob cannot be read back, whatever the report:
    the text finishes the base action, and the end of the element finds no action. *)
Theorem C51_scalar_not_read : forall (text_ok : bytes -> bool) (v : value), vok v -> bearable text_ok v ->
  match v with VInt _ | VUns _ | VFlt _ | VBlob _ => True | VStr s => s <> [] | _ => False end -> exists calls,
  xml_calls xml_default (emit_value v) = Ok calls /\ forall bad back, shown text_ok [] calls back -> xr_parse (xr_new back bad) = Throw RuntimeError.
Proof.
  intros text_ok v V L Q. exists (xouts 17 v). split; [unfold xml_calls, xml_default; rewrite (xwrite text_ok v L) by exact Logic.I; reflexivity|]. intros bad back H.
  assert (G : forall n s, shown text_ok [] (el n s) back -> xml_blank s = false -> texty (string_to_node n) = true ->
    (forall stale, exists u, process_text stale s (XPst [string_to_node n; EndState] true b_new) = xp_call (BScalar u) (XPst [string_to_node n; EndState] false b_new)) -> xr_parse (xr_new back bad) = Throw RuntimeError).
  { clear H. intros n s H B T P. unfold el in H. destruct (inv_start _ _ _ _ H n (WText s) [WEnd] eq_refl ltac:(discriminate)) as (k1 & x1 & -> & H1).
    destruct (inv_text _ _ _ _ H1 s [WEnd] eq_refl B) as (k2 & stale & x2 & -> & H2). destruct (inv_end _ _ _ _ H2 n [] [] eq_refl eq_refl) as (k3 & x3 & -> & _). destruct (P stale) as [u Pu].
    unfold xr_parse, xr_new. cbn [xr_events xr_bad xr_stack xr_empty]. rewrite loop_from. unfold from.
    replace (xp_run bad (oth k1 ++ XElem n false :: oth k2 ++ XText stale s :: oth k3 ++ XEnd n :: x3) true (XPst [StartState] false b_new))
      with (xp_run bad (oth k1 ++ XElem n false :: oth k2 ++ XText stale s :: oth k3 ++ XEnd n :: x3) false (XPst [EndState] false b_new)) by (destruct k1; reflexivity).
    rewrite run_others. rewrite run_step with (loop := true) (st' := XPst [string_to_node n; EndState] true b_new); [|discriminate|cbn; destruct (string_to_node n); try discriminate T; reflexivity].
    cbn [negb]. rewrite run_others. rewrite run_step with (loop := true) (st' := XPst [string_to_node n; EndState] false (BState [] u true)); [|discriminate|unfold xp_event; cbn [xp_b b_acts b_new]; fold b_new; rewrite Pu; reflexivity].
    cbn [negb]. rewrite run_others. reflexivity. }
  destruct v as [|b|z|n|f|s|l|m|bl]; try contradiction; cbn [xouts] in H.
  - eapply G; [exact H|apply bare_xml, bare_int|reflexivity|eexists; reflexivity].
  - rewrite <- dec_of_Z_of_N in H. eapply G; [exact H|apply bare_xml, bare_int|reflexivity|eexists; reflexivity].
  - destruct L as (y & Dy & ->). rewrite FloatProofs.d_of_ld_of_d in H by exact Dy. eapply G; [exact H|apply bare_xml, bare_print|reflexivity|eexists; reflexivity].
  - destruct L as [N [->|[B _]]]; [contradiction|]. rewrite c_str_id in H by exact N. eapply G; [exact H|exact B|reflexivity|eexists; reflexivity].
  - destruct L as (Fb & Nb & Lb). eapply G; [exact H|apply blob_solid; auto|reflexivity|]. intros stale. exists (VBlob [List.concat bl]). cbn [process_text xp_stack]. change (string_to_node BLOB_NAME) with BlobNode. cbv iota. rewrite xml_blob_back by auto. reflexivity.
Qed.
Print Assumptions C51_scalar_not_read.
Example C51_scalar_not_read_case : vok (VInt 5) /\ bearable xml_ascii (VInt 5) /\ xml_there_and_back (emit_value (VInt 5)) = Some (Throw RuntimeError) /\
  xml_there_and_back (EvBeginDoc :: emit_value (VInt 5) ++ [EvEndDoc]) = Some (Ok (VInt 5)).
Proof. split; [cbn; lia|]. split; [exact Logic.I|]. split; vm_compute; reflexivity. Qed.

(** A text of white space comes back empty, as a key as well. *)
Theorem C51_blank_refuted : exists v v', v = VMap [(s2b " ", VStr [bchr 10; bchr 9])] /\ v' = VMap [([], VStr [])] /\ xml_there_and_back (emit_value v) = Some (Ok v').
Proof. do 2 eexists. split; [reflexivity|]. split; [reflexivity|]. vm_compute. reflexivity. Qed.
Print Assumptions C51_blank_refuted.
(** A map with two such keys loses one of its elements. *)
Theorem C51_blank_keys_refuted : exists v v', v = VMap [([], VInt 1); (s2b " ", VInt 2); (s2b "  ", VInt 3)] /\ v' = VMap [([], VInt 3)] /\ xml_there_and_back (emit_value v) = Some (Ok v').
Proof. do 2 eexists. split; [reflexivity|]. split; [reflexivity|]. vm_compute. reflexivity. Qed.
Print Assumptions C51_blank_keys_refuted.
(** What is written for an empty blob is refused. *)
Theorem C51_empty_blob_refuted : exists v, v = VList [VBlob []] /\ vok v /\ xml_there_and_back (emit_value v) = Some (Throw RuntimeError).
Proof. eexists. split; [reflexivity|]. split; [repeat constructor|]. vm_compute. reflexivity. Qed.
Print Assumptions C51_empty_blob_refuted.
(** Texts are cut at a NUL, and long doubles are rounded to double. *)
Theorem C51_nul_refuted : exists v v', v = VList [VStr [bchr 97; bchr 0; bchr 98]] /\ v' = VList [VStr [bchr 97]] /\ xml_there_and_back (emit_value v) = Some (Ok v').
Proof. do 2 eexists. split; [reflexivity|]. split; [reflexivity|]. vm_compute. reflexivity. Qed.
Print Assumptions C51_nul_refuted.
Theorem C51_long_double_refuted : exists v v', v = VList [VFlt (S754_finite false 9223372036854775809 (-63))] /\ v' = VList [VFlt (S754_finite false 9223372036854775808 (-63))] /\
  xml_there_and_back (emit_value v) = Some (Ok v').
Proof. do 2 eexists. split; [reflexivity|]. split; [reflexivity|]. vm_compute. reflexivity. Qed.
Print Assumptions C51_long_double_refuted.

(** A comment within a text makes two values of it: <array><string>a<!-- -->b</string></array>. *)
Theorem C51_comment_refuted : exists x, x = [XElem LIST_NAME false; XElem STRING_NAME false; XText false (s2b "a"); XOther; XText false (s2b "b"); XEnd STRING_NAME; XEnd LIST_NAME] /\
  (do (v, q) <- xr_parse (xr_new x false); Ok v) = Ok (VList [VStr (s2b "a"); VStr (s2b "b")]).
Proof. eexists. split; [reflexivity|]. vm_compute. reflexivity. Qed.
Print Assumptions C51_comment_refuted.
(** An integer of a property list is decimal; one with a leading zero is read as octal: <integer>010</integer>. *)
Theorem C51_octal_refuted : exists x, x = [XElem LIST_NAME false; XElem INTEGER_NAME false; XText false (s2b "010"); XEnd INTEGER_NAME; XEnd LIST_NAME] /\
  (do (v, q) <- xr_parse (xr_new x false); Ok v) = Ok (VList [VInt 8]).
Proof. eexists. split; [reflexivity|]. vm_compute. reflexivity. Qed.
Print Assumptions C51_octal_refuted.
(** Two values in the root element: the first is lost. *)
Theorem C51_two_values_refuted : exists x, x = [XElem ROOT_NAME false; XElem TRUE_NAME true; XElem FALSE_NAME true; XEnd ROOT_NAME] /\
  (do (v, q) <- xr_parse (xr_new x false); Ok v) = Ok (VBool false).
Proof. eexists. split; [reflexivity|]. vm_compute. reflexivity. Qed.
Print Assumptions C51_two_values_refuted.

(** Iterating over all documents of an XML input does not end: after the one document there is null, again and again. *)
Lemma null_again p e bad : xr_parse (XParser p bad [EndState] e) = Ok (VNull, XParser p bad [EndState] e).
Proof. unfold xr_parse. cbn [xr_events xr_bad xr_stack xr_empty xp_loop]. destruct p; reflexivity. Qed.
Lemma null_steps {P} (done : P -> bool) (parse : P -> res (value * P)) p : done p = false -> parse p = Ok (VNull, p) ->
  forall n ns v, it_run done parse (Shared p (ns ++ [(v, None)])) [Iter true (Some (List.length ns)); it_end] (List.concat (List.repeat [INext 0; IEq 0 1; IGet 0] n)) = Ok (List.concat (List.repeat [OEq false; OGet (Ok VNull)] n)).
Proof.
  intros D E. induction n as [|n IH]; intros ns v; [reflexivity|]. cbn [List.repeat List.concat app it_run it_step nth_error]. unfold it_next. cbn [it_at it_impl sh_nodes sh_parser].
  assert (X : forall A (l : list A) a, nth_error (l ++ [a]) (List.length l) = Some a) by (intros; rewrite nth_error_app2, Nat.sub_diag by lia; reflexivity).
  rewrite X, D, E. cbn [rbind]. rewrite D. cbn [andb rbind firstn skipn app nth_error].
  assert (Lk : forall m, link (ns ++ [(v, None)]) (List.length ns) m = ns ++ [(v, Some m)]) by (intros m; clear; induction ns as [|[a b] ns IH]; [reflexivity|]; cbn [app List.length link]; rewrite IH; reflexivity).
  rewrite Lk. assert (K : forall a, List.length (ns ++ [(v, a)]) = List.length (ns ++ [(v, None)])) by (intros; rewrite !app_length; reflexivity).
  remember (List.length (ns ++ [(v, None)])) as k eqn:Ek. clear Ek. assert (X2 := X _ (ns ++ [(v, Some k)]) (VNull, None)). assert (IH2 := IH (ns ++ [(v, Some k)]) VNull). rewrite K in X2, IH2.
  unfold it_get, it_eq. cbn [it_at it_end sh_nodes]. rewrite X2, IH2. reflexivity.
Qed.
Theorem C36_xml_endless_refuted : exists x v, (do (v, q) <- xr_parse (xr_new x false); Ok v) = Ok v /\ forall n,
  load_all xr_done xr_parse (xr_new x false) ([IEq 0 1; IGet 0] ++ List.concat (List.repeat [INext 0; IEq 0 1; IGet 0] n)) =
  Ok ([OEq false; OGet (Ok v)] ++ List.concat (List.repeat [OEq false; OGet (Ok VNull)] n)).
Proof.
  exists [XElem LIST_NAME false; XElem TRUE_NAME true; XEnd LIST_NAME], (VList [VBool true]). split; [vm_compute; reflexivity|]. intros n.
  unfold load_all, it_new, it_next. cbn [it_at it_impl sh_parser]. change (xr_done (xr_new _ _)) with false. cbv iota.
  replace (xr_parse (xr_new [XElem LIST_NAME false; XElem TRUE_NAME true; XEnd LIST_NAME] false)) with (Ok (VList [VBool true], XParser [] false [EndState] false)) by (vm_compute; reflexivity).
  cbn [rbind sh_nodes app List.length it_run it_step nth_error]. unfold it_eq, it_get. cbn [it_at it_end sh_nodes nth_error rbind].
  assert (X := null_steps xr_done xr_parse _ eq_refl (null_again [] false false) n [] (VList [VBool true])). cbn [app List.length] in X. rewrite X. reflexivity.
Qed.
Print Assumptions C36_xml_endless_refuted.
