(** C36 and C47: iterating over the documents of an input, and reading YAML. *)
From Verif Require Import Base CNum Float Value Convert Emit Builder Base64 Base64Spec GuessScalar Bundle ParserInput GuessFormat JSONParserC JSONDriver Deserialize P_JSONInput LoadAll LoadAllProofs YAMLSem.
Open Scope N_scope.

(** ** C36 *)

(** Iterators behave as positions in the list of documents: [pos_run] keeps for every iterator
    the number of its document (the number of documents for the end); a copy is the same
    position, advancing moves to the next position, Get gives that document or fails at the
    end, and two iterators are equal when their positions are.  This for every program that
    copies, advances, reads and compares any number of iterators in any order, for every
    parser that gives the documents one after the other. *)
Theorem C36_each_once_partial : forall {P : Type} (done : P -> bool) (parse : P -> res (value * P)) (p q : P) (d : value) (r : list value) (ops : list iop),
  done p = false -> parse p = Ok (d, q) -> serves done parse q r ->
  Forall (no_advance 1) ops ->
  load_all done parse p ops = Ok (pos_run (d :: r) [0%nat; List.length (d :: r)] ops).
Proof.
  intros P done parse p q d r ops D E S F. unfold load_all, it_new, it_next. cbn [it_at it_impl sh_parser]. rewrite D, E. cbn [rbind sh_nodes app List.length].
  assert (Sh : shared_ok done parse (d :: r) (Shared q [(d, None)])).
  { exists 1%nat. split; [cbn; lia|]. split; [reflexivity|exact S]. }
  apply run_ok; [exact Sh| |reflexivity| |exact F].
  - constructor; [left; split; [reflexivity|]; cbn; lia|]. constructor; [right; split; reflexivity|constructor].
  - intros [|[|i]] it H N; cbn in H; [injection H as <-; reflexivity|congruence|destruct i; discriminate].
Qed.
Print Assumptions C36_each_once_partial.

(** The usual loop: compare with the end, read, advance. *)
Definition loop_body : list iop := [IEq 0 1; IGet 0; INext 0].
Lemma loop_from docs : forall n k, (k + n = List.length docs)%nat ->
  pos_run docs [k; List.length docs] (List.concat (List.repeat loop_body n) ++ [IEq 0 1]) =
  List.concat (List.map (fun v => [OEq false; OGet (Ok v)]) (skipn k docs)) ++ [OEq true].
Proof.
  induction n as [|n IH]; intros k H.
  - cbn [List.repeat List.concat app pos_run pos_step nth_error]. rewrite skipn_all2 by lia. cbn [List.map List.concat app].
    replace (Nat.eqb k (List.length docs)) with true by (symmetry; apply Nat.eqb_eq; lia). reflexivity.
  - cbn [List.repeat List.concat loop_body app pos_run pos_step nth_error firstn skipn].
    replace (Nat.eqb k (List.length docs)) with false by (symmetry; apply Nat.eqb_neq; lia).
    destruct (nth_error docs k) as [v|] eqn:E. 2: { apply nth_error_None in E. lia. }
    replace (Nat.min (S k) (List.length docs)) with (S k) by lia. rewrite IH by lia.
    replace (skipn k docs) with (v :: skipn (S k) docs); [reflexivity|]. revert k E H. clear. intros k E _. revert k E.
    induction docs as [|a docs IHd]; intros [|k] E; cbn in *; try discriminate; [congruence|]. now apply IHd.
Qed.
Theorem C36_loop_partial : forall {P : Type} (done : P -> bool) (parse : P -> res (value * P)) (p q : P) (d : value) (r : list value),
  done p = false -> parse p = Ok (d, q) -> serves done parse q r ->
  load_all done parse p (List.concat (List.repeat loop_body (List.length (d :: r))) ++ [IEq 0 1]) =
  Ok (List.concat (List.map (fun v => [OEq false; OGet (Ok v)]) (d :: r)) ++ [OEq true]).
Proof.
  intros P done parse p q d r D E S. assert (F : Forall (no_advance 1) (List.concat (List.repeat loop_body (List.length (d :: r))) ++ [IEq 0 1])).
  { apply Forall_app. split; [|repeat constructor; discriminate]. apply Forall_concat, Forall_forall.
    intros x Hx. apply repeat_spec in Hx. subst x. repeat constructor; discriminate. }
  rewrite (C36_each_once_partial done parse p q d r) by assumption.
  now rewrite (loop_from (d :: r) (List.length (d :: r)) 0) by reflexivity.
Qed.
Print Assumptions C36_loop_partial.

(** YAML: the documents are those that the events describe, in order. *)
Theorem C36_yaml_partial : forall (ts : list ynode) (vs : list value) (ops : list iop),
  ts <> [] -> Forall2 doc_means ts vs -> Forall (no_advance 1) ops ->
  load_all y_eof y_parse (YParser (stream_events ts) false) ops = Ok (pos_run vs [0%nat; List.length vs] ops).
Proof.
  intros ts vs ops Ne F Fo. destruct F as [|t v ts vs H F]; [contradiction|].
  apply (C36_each_once_partial y_eof y_parse _ (YParser (List.concat (List.map doc_events ts) ++ [YStreamEnd]) false)); [reflexivity| |apply yaml_serves; exact F|exact Fo].
  unfold stream_events. cbn [List.map List.concat]. rewrite <- app_assoc. apply parse_first. exact H.
Qed.
Print Assumptions C36_yaml_partial.

(** ** JSON: one document *)

Definition not_base (a : action) : Prop := match a with ABase _ _ => False | _ => True end.
Definition based (b : bstate) : Prop := b_done b = false /\ exists l v, b_acts b = l ++ [ABase true v] /\ Forall not_base l.
Lemma based_set v b b' : set_value v b = Ok b' -> based b -> based b'.
Proof.
  intros E (D & l & w & A & F). unfold set_value in E. rewrite A in E. destruct l as [|a l]; cbn [app] in E.
  - injection E as <-. split; [exact D|]. exists [], v. auto.
  - inversion F as [|? ? Fa Fl]; subst. destruct a as [|[] k m|l0]; [contradiction| | |].
    + destruct (as_string v) as [k'| | | |]; try discriminate. injection E as <-. split; [exact D|]. exists (AMap false k' m :: l), w. split; [reflexivity|]. constructor; [exact I|auto].
    + injection E as <-. split; [exact D|]. exists (AMap true k (mset k v m) :: l), w. split; [reflexivity|]. constructor; [exact I|auto].
    + injection E as <-. split; [exact D|]. exists (AList (l0 ++ [v]) :: l), w. split; [reflexivity|]. constructor; [exact I|auto].
Qed.
Definition plain_ev (e : bev) : Prop := match e with BBeginDoc | BEndDoc => False | _ => True end.
Lemma based_build b e b' : plain_ev e -> build b e = Ok b' -> based b -> based b'.
Proof.
  intros Pe E B. pose proof B as (D & l & w & A & F). unfold build in E. destruct (b_acts b) as [|top t] eqn:Ac; [discriminate|].
  assert (Fin : not_base top -> finish b = Ok b' -> based b').
  { intros Nb E'. unfold finish in E'. rewrite Ac in E'. destruct l as [|a l]; cbn [app] in A; injection A as -> ->; [contradiction|].
    inversion F as [|? ? Fa Fl]; subst. destruct a as [|ek k m|l0]; [contradiction| |]; eapply based_set; try exact E'; (split; [exact D|]; exists l, w; split; [reflexivity|exact Fl]). }
  destruct e; try contradiction.
  - injection E as <-. split; [exact D|]. exists (AMap true [] [] :: l), w. rewrite A. split; [reflexivity|]. constructor; [exact I|auto].
  - destruct top; try discriminate. apply Fin; [exact I|exact E].
  - injection E as <-. split; [exact D|]. exists (AList [] :: l), w. rewrite A. split; [reflexivity|]. constructor; [exact I|auto].
  - destruct top; try discriminate. apply Fin; [exact I|exact E].
  - eapply based_set; eauto.
Qed.
Lemma callback_b d e d' : callback d e = Ok d' -> based (d_b d) -> based (d_b d').
Proof.
  unfold callback. intros E B. set (d0 := match d_st d with S_BEGIN => set_st d S_OK | _ => d end) in *.
  assert (E0 : d_b d0 = d_b d) by (subst d0; destruct d as [? [] ? ?]; reflexivity). clearbody d0.
  assert (C : forall k ev, plain_ev ev -> (do b <- build (d_b d0) ev; Ok (add_depth (set_b d0 b) k)) = Ok d' -> based (d_b d')).
  { intros k ev Pe H. rewrite E0 in H. destruct (build (d_b d) ev) as [b| | | |] eqn:Bu; cbn [rbind] in H; try discriminate. injection H as <-.
    pose proof (based_build _ _ _ Pe Bu B) as Q. destruct d0; exact Q. }
  destruct e; try (eapply C; [|exact E]; exact I).
  destruct (str_value s) as [v| | | |]; cbn [rbind] in E; try discriminate. eapply C; [|exact E]. exact I.
Qed.
Lemma callbacks_b es : forall d d', callbacks d es = Ok d' -> based (d_b d) -> based (d_b d').
Proof.
  induction es as [|e es IH]; intros d d' E B; cbn [callbacks] in E; [injection E as <-; exact B|].
  destruct (callback d e) as [d1| | | |] eqn:C; cbn [rbind] in E; try discriminate. eapply IH; [exact E|]. eapply callback_b; eauto.
Qed.
Definition midway (d : jd) : Prop := based (d_b d) /\ match d_st d with S_START | S_DONE => False | _ => True end.
Lemma callback_st d e d' : callback d e = Ok d' -> match d_st d with S_START | S_DONE => False | _ => True end -> match d_st d' with S_START | S_DONE => False | _ => True end.
Proof.
  unfold callback. intros E B. set (d0 := match d_st d with S_BEGIN => set_st d S_OK | _ => d end) in *.
  assert (E0 : match d_st d0 with S_START | S_DONE => False | _ => True end) by (subst d0; destruct d as [? [] ? ?]; cbn in *; auto). clearbody d0.
  assert (C : forall k ev, (do b <- build (d_b d0) ev; Ok (add_depth (set_b d0 b) k)) = Ok d' -> match d_st d' with S_START | S_DONE => False | _ => True end).
  { intros k ev H. destruct (build (d_b d0) ev) as [b| | | |] eqn:Bu; cbn [rbind] in H; try discriminate. injection H as <-. destruct d0; exact E0. }
  destruct e; try (eapply C; exact E). destruct (str_value s) as [v| | | |]; cbn [rbind] in E; try discriminate. eapply C; exact E.
Qed.
Lemma callbacks_m es : forall d d', callbacks d es = Ok d' -> midway d -> midway d'.
Proof.
  induction es as [|e es IH]; intros d d' E B; cbn [callbacks] in E; [injection E as <-; exact B|].
  destruct (callback d e) as [d1| | | |] eqn:C; cbn [rbind] in E; try discriminate. eapply IH; [exact E|]. destruct B. split; [eapply callback_b|eapply callback_st]; eauto.
Qed.
Lemma settle_m d : midway d -> midway (settle d).
Proof. intros [B H]. unfold settle. destruct (jdone (d_p d)) as [ok p]. destruct d. split; [exact B|]. destruct ok; exact I. Qed.
Lemma char_m d c d' : jd_char d c = Ok d' -> midway d -> midway d'.
Proof.
  unfold jd_char. destruct (jchar (d_p d) c) as [evs r]. intros E M. destruct (callbacks d evs) as [d1| | | |] eqn:C; cbn [rbind] in E; try discriminate.
  apply callbacks_m in C; [|exact M]. destruct r as [[p ok]| | | |]; cbn [rbind] in E; try discriminate. injection E as <-.
  assert (M2 : midway (set_p d1 p)) by (destruct d1; exact C).
  change (d_st d1) with (d_st (set_p d1 p)). change (d_depth d1) with (d_depth (set_p d1 p)). generalize dependent (set_p d1 p). clear. intros d [B H]. destruct ok, (d_st d) eqn:S; try (split; [exact B|rewrite S; exact H]).
  - destruct (d_depth d =? 0)%Z; [apply settle_m|]; (split; [exact B|now rewrite S]).
  - destruct d. split; [exact B|exact I].
Qed.
Lemma chunk_m cs : forall d n d' n', jd_chunk d cs n = Ok (d', n') -> midway d -> midway d'.
Proof.
  induction cs as [|c cs IH]; intros d n d' n' E M; cbn [jd_chunk] in E; [injection E as <- <-; exact M|].
  destruct (live d); [|injection E as <- <-; exact M]. destruct (jd_char d c) as [d1| | | |] eqn:C; cbn [rbind] in E; try discriminate.
  eapply IH; [exact E|]. eapply char_m; eauto.
Qed.
Section One.
  Variable I : Type.
  Variable getptr : I -> res (option bytes * I).
  Variable release : I -> N -> res I.
  Lemma parse_m fuel : forall d i d' i', jd_parse I getptr release fuel d i = Ok (d', i') -> midway d -> midway d'.
  Proof.
    induction fuel as [|f IH]; intros d i d' i' E M; cbn [jd_parse] in E; [discriminate|]. destruct (live d); [|injection E as <- <-; exact M].
    destruct (getptr i) as [[[cs|] i1]| | | |]; cbn [rbind] in E; try discriminate.
    - destruct (jd_chunk d cs 0) as [[d1 n]| | | |] eqn:C; cbn [rbind] in E; try discriminate. destruct (release i1 n) as [i2| | | |]; cbn [rbind] in E; try discriminate.
      eapply IH; [exact E|]. eapply chunk_m; eauto.
    - injection E as <- <-. apply settle_m, M.
  Qed.
  Lemma run_m fuel : forall d i n d' i', jd_run I getptr release fuel d i = Ok (n, d', i') -> midway d -> n = 1 /\ d_st d' = S_DONE.
  Proof.
    induction fuel as [|f IH]; intros d i n d' i' E [B H]; cbn [jd_run] in E; [discriminate|].
    pose proof B as (_ & l & w & A & _). destruct (b_acts (d_b d)) as [|a t] eqn:Ac; [destruct l; discriminate|].
    destruct (d_st d) eqn:St; try contradiction; try discriminate.
    - destruct (jd_parse I getptr release f d i) as [[d1 i1]| | | |] eqn:C; cbn [rbind] in E; try discriminate. eapply IH; [exact E|]. eapply parse_m; [exact C|]. split; [exact B|]. now rewrite St.
    - destruct (jd_parse I getptr release f d i) as [[d1 i1]| | | |] eqn:C; cbn [rbind] in E; try discriminate. eapply IH; [exact E|]. eapply parse_m; [exact C|]. split; [exact B|]. now rewrite St.
    - destruct (build (d_b d) BEndDoc) as [b| | | |]; cbn [rbind] in E; try discriminate. injection E as <- <- <-. destruct d. auto.
  Qed.
  Lemma json_one fuel i v d' i' : parse_variant I getptr release fuel i = Ok (v, d', i') -> d_st d' = S_DONE.
  Proof.
    unfold parse_variant. destruct fuel as [|f]; [discriminate|]. cbn [pv_loop]. cbn [jd_run jd_new d_b b_new b_acts d_st build rbind]. cbn [set_st set_b d_b b_done negb andb N.eqb b_result].
    destruct f as [|f]; [discriminate|]. cbn [pv_loop].
    set (d0 := set_st _ _). assert (M : midway d0). { split; [|exact Logic.I]. split; [reflexivity|]. exists [], VNull. split; [reflexivity|constructor]. } clearbody d0.
    intros E. destruct (jd_run I getptr release (Datatypes.S f) d0 i) as [[[n d1] i1]| | | |] eqn:R; cbn [rbind] in E; try discriminate.
    apply run_m in R as [-> R]; [|exact M]. cbn in E. injection E as <- <- <-. exact R.
  Qed.
End One.

(** JSON text is one document, however it is written and delivered. *)
Theorem C36_json_partial : forall (fuel : nat) (i : pinput) (v : value) (ops : list iop),
  outcome (parse_json fuel i) = Ok v -> Forall (no_advance 1) ops ->
  load_all (j_done pinput) (j_parse pinput in_view in_release fuel) (j_start pinput i) ops = Ok (pos_run [v] [0%nat; 1%nat] ops).
Proof.
  intros fuel i v ops O F. unfold parse_json in O. destruct (parse_variant pinput in_view in_release fuel i) as [[[w d'] i']| | | |] eqn:E; try discriminate.
  injection O as ->. pose proof (json_one _ _ _ _ _ _ _ _ E) as D.
  apply (C36_each_once_partial (j_done pinput) (j_parse pinput in_view in_release fuel) (j_start pinput i) (d', i') v []); [reflexivity| | |exact F].
  - unfold j_parse, j_start. cbn [fst snd]. change (set_b _ _) with jd_new. unfold parse_variant in E. rewrite E. reflexivity.
  - constructor. unfold j_done. cbn [fst]. now rewrite D.
Qed.
Print Assumptions C36_json_partial.

(** ** C47 *)

(** One document of a YAML stream is read as the document its events describe, with an alias
    standing for the anchored node, and nothing after its end is touched. *)
Theorem C47_yaml_document_partial : forall (t : ynode) (v : value) (rest : list yev), doc_means t v ->
  y_parse (YParser (doc_events t ++ rest) false) = Ok (v, YParser rest false) /\
  y_parse (YParser (YStreamStart :: doc_events t ++ rest) false) = Ok (v, YParser rest false).
Proof. intros t v rest H. split; [apply parse_doc|apply parse_first]; exact H. Qed.
Print Assumptions C47_yaml_document_partial.

(** A document with an alias for an anchor that was not met before is refused. *)
Theorem C47_unknown_alias : forall (t : ynode) (rest : list yev) v q, dangling t ->
  y_parse (YParser (doc_events t ++ rest) false) <> Ok (v, q).
Proof. intros t rest v q. apply dangling_refused. Qed.
Print Assumptions C47_unknown_alias.
(** [ [&a 1, {k: *b}, &b 2] ]: the alias comes too early. *)
Example C47_unknown_alias_case : dangling (NSeq None [NScalar (Some (s2b "a")) None true false (s2b "1");
  NMap None [(NScalar None None true false (s2b "k"), NAlias (s2b "b"))]; NScalar (Some (s2b "b")) None true false (s2b "2")]).
Proof.
  exists [YSeqStart None; YScalar (Some (s2b "a")) None true false (s2b "1"); YMapStart None; YScalar None None true false (s2b "k")], (s2b "b").
  eexists. split; [reflexivity|]. cbn. intros [H|[]]. discriminate.
Qed.

(** ** Cases *)

Definition sc (s : String.string) : ynode := NScalar None None true false (s2b s).
(** [ { a: &x [1, *y], b: *x } ] and so on: three documents, the second null. *)
Definition case_docs : list ynode :=
  [NMap None [(sc "a", NSeq (Some (s2b "x")) [sc "1"; NScalar (Some (s2b "y")) None false false (s2b "2"); NAlias (s2b "y")]); (sc "b", NAlias (s2b "x"))];
   sc "null"; NSeq None []].
Definition case_value : value := let l := VList [VInt 1; VStr (s2b "2"); VStr (s2b "2")] in VMap [(s2b "a", l); (s2b "b", l)].
Lemma case_first : doc_means (hd (sc "") case_docs) case_value.
Proof.
  split; [|split; [|split]].
  - eexists. change case_value with (VMap (of_pairs [(s2b "a", VList [VInt 1; VStr (s2b "2"); VStr (s2b "2")]); (s2b "b", VList [VInt 1; VStr (s2b "2"); VStr (s2b "2")])])).
    eapply (MMap [] None _ _ [(s2b "y", Some (VStr (s2b "2"))); (s2b "x", Some (VList [VInt 1; VStr (s2b "2"); VStr (s2b "2")]))]).
    + eapply MPCons with (kv := VStr (s2b "a")) (ks := s2b "a").
      * apply MScalar. vm_compute. reflexivity.
      * reflexivity.
      * eapply (MSeq _ (Some (s2b "x")) _ _ [(s2b "y", Some (VStr (s2b "2")))]). eapply MCons; [apply MScalar; vm_compute; reflexivity|].
        eapply MCons; [apply MScalar; reflexivity|]. eapply MCons; [apply MAlias; reflexivity|]. apply MNil.
      * eapply MPCons with (kv := VStr (s2b "b")) (ks := s2b "b"); [apply MScalar; vm_compute; reflexivity|reflexivity|apply MAlias; reflexivity|]. apply MPNil.
    + cbn [List.map fst]. constructor; [intros [H|[]]; discriminate|]. constructor; [intros []|constructor].
  - cbn. constructor; [intros [H|[]]; discriminate|]. constructor; [intros []|constructor].
  - cbn. intros [H|[H|[]]]; discriminate.
  - cbn. tauto.
Qed.
Example C36_case : Forall2 doc_means case_docs [case_value; VNull; VList []] /\
  load_all y_eof y_parse (YParser (stream_events case_docs) false) [ICopy 0; INext 0; IGet 0; IGet 2; IEq 0 2; INext 2; IEq 0 2; INext 2; IGet 2; INext 0; INext 0; INext 2; IEq 0 2; IEq 0 1; IGet 0] =
  Ok [OGet (Ok VNull); OGet (Ok case_value); OEq false; OEq true; OGet (Ok (VList [])); OEq true; OEq true; OGet (Throw OutOfRange)].
Proof.
  split; [|vm_compute; reflexivity]. constructor; [exact case_first|]. constructor; [|constructor; [|constructor]].
  - split; [eexists; apply MScalar; vm_compute; reflexivity|]. cbn. split; [constructor|tauto].
  - split; [eexists; apply (MSeq [] None [] [] []), MNil|]. cbn. split; [constructor|tauto].
Qed.
Example C36_json_case : exists v, outcome (parse_json 100 (InMem (MInput (s2b "[1, 2]") 0))) = Ok v /\
  load_all (j_done pinput) (j_parse pinput in_view in_release 100) (j_start pinput (InMem (MInput (s2b "[1, 2]") 0))) [IGet 0; INext 0; IEq 0 1] = Ok [OGet (Ok v); OEq true].
Proof. exists (VList [VUns 1; VUns 2]). split; vm_compute; reflexivity. Qed.

(** ** Refutations *)

(** A YAML stream without documents yields one, null. *)
Theorem C36_empty_stream_refuted : exists ops, load_all y_eof y_parse (YParser (stream_events []) false) ops <> Ok (pos_run [] [0%nat; 0%nat] ops) /\
  load_all y_eof y_parse (YParser (stream_events []) false) ops = Ok [OEq false; OGet (Ok VNull)].
Proof. exists [IEq 0 1; IGet 0]. split; [vm_compute; discriminate|vm_compute; reflexivity]. Qed.
Print Assumptions C36_empty_stream_refuted.

(** Of several JSON documents one after the other only the first is yielded. *)
Theorem C36_json_several_refuted : exists text a b, text = a ++ s2b " " ++ b /\
  outcome (parse_json 100 (InMem (MInput a 0))) = Ok (VList [VUns 1]) /\ outcome (parse_json 100 (InMem (MInput b 0))) = Ok (VList [VUns 2]) /\
  load_all (j_done pinput) (j_parse pinput in_view in_release 100) (j_start pinput (InMem (MInput text 0))) [IGet 0; INext 0; IEq 0 1; IGet 0] =
  Ok [OGet (Ok (VList [VUns 1])); OEq true; OGet (Throw OutOfRange)].
Proof.
  exists (s2b "[1] [2]"), (s2b "[1]"), (s2b "[2]"). split; [reflexivity|]. split; [vm_compute; reflexivity|]. split; vm_compute; reflexivity.
Qed.
Print Assumptions C36_json_several_refuted.

(** Advancing the end iterator dereferences a null pointer (advancing an iterator that has
    reached the end does not). *)
Theorem C36_end_advanced_refuted : exists ops, load_all y_eof y_parse (YParser (stream_events case_docs) false) ops = UB.
Proof. exists [INext 1]. vm_compute. reflexivity. Qed.
Print Assumptions C36_end_advanced_refuted.

(** An anchor may be used again, and an alias then means the latest; the parser takes the first. *)
Theorem C47_anchor_again_refuted : exists t v v' e, means [] t v e /\ keys_free t /\ ~ In [] (anchors t) /\
  y_parse (YParser (doc_events t) false) = Ok (v', YParser [] false) /\ v <> v'.
Proof.
  exists (NSeq None [NScalar (Some (s2b "a")) None true false (s2b "1"); NScalar (Some (s2b "a")) None true false (s2b "2"); NAlias (s2b "a")]),
    (VList [VInt 1; VInt 2; VInt 2]), (VList [VInt 1; VInt 2; VInt 1]). eexists. split.
  - eapply (MSeq [] None _ _ [(s2b "a", Some (VInt 2)); (s2b "a", Some (VInt 1))]). eapply MCons; [apply MScalar; vm_compute; reflexivity|].
    eapply MCons; [apply MScalar; vm_compute; reflexivity|]. eapply MCons; [apply MAlias; reflexivity|apply MNil].
  - split; [cbn; tauto|]. split; [cbn; intros [H|[H|[]]]; discriminate|]. split; [vm_compute; reflexivity|discriminate].
Qed.
Print Assumptions C47_anchor_again_refuted.

(** The anchor of a key is forgotten, and an alias for it is refused. *)
Theorem C47_key_anchor_refuted : exists t v e, means [] t v e /\ NoDup (anchors t) /\ ~ In [] (anchors t) /\
  y_parse (YParser (doc_events t) false) = Throw OutOfRange.
Proof.
  exists (NMap None [(NScalar (Some (s2b "k")) None true false (s2b "name"), NAlias (s2b "k"))]), (VMap [(s2b "name", VStr (s2b "name"))]). eexists. split.
  - eapply (MMap [] None _ [(s2b "name", VStr (s2b "name"))] [(s2b "k", Some (VStr (s2b "name")))]).
    + eapply MPCons; [apply MScalar; vm_compute; reflexivity|reflexivity|apply MAlias; reflexivity|apply MPNil].
    + cbn. constructor; [intros []|constructor].
  - split; [cbn; constructor; [intros []|constructor]|]. split; [cbn; intros [H|[]]; discriminate|]. vm_compute. reflexivity.
Qed.
Print Assumptions C47_key_anchor_refuted.

(** Keys that look like numbers are rewritten: 0x10 becomes 16, so that it meets the key 16. *)
Theorem C47_key_text_refuted : exists a b, a <> b /\
  y_parse (YParser (doc_events (NMap None [(sc a, sc "first"); (sc b, sc "second")])) false) = Ok (VMap [(s2b "16", VStr (s2b "second"))], YParser [] false).
Proof. exists "0x10"%string, "16"%string. split; [discriminate|]. vm_compute. reflexivity. Qed.
Print Assumptions C47_key_text_refuted.

(** A scalar tagged !!int is read as a string. *)
Theorem C47_int_tag_refuted : exists t, In t core_tags /\
  y_parse (YParser (doc_events (NScalar None (Some t) true false (s2b "5"))) false) = Ok (VStr (s2b "5"), YParser [] false).
Proof. exists (s2b "tag:yaml.org,2002:int"). split; [left; reflexivity|]. vm_compute. reflexivity. Qed.
Print Assumptions C47_int_tag_refuted.

(** Binary data with a brace reads outside the decoding table. *)
Theorem C47_binary_refuted : exists s, y_parse (YParser (doc_events (NScalar None (Some (s2b "tag:yaml.org,2002:binary")) true false s)) false) = UB.
Proof. exists (s2b "TWFu{"). vm_compute. reflexivity. Qed.
Print Assumptions C47_binary_refuted.
