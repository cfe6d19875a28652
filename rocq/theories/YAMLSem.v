(** What a stream of YAML events describes, and that the parser builds it. *)
From Verif Require Import Base CNum Float Value Convert Emit Builder Base64 Base64Spec Base64Proofs EventBufferProofs GuessScalar Bundle ParserInput LoadAll LoadAllProofs.
Open Scope N_scope.

(** ** Documents *)

(** A node of a document: an alias, a scalar (with its anchor, tag, style and the errno at the
    time, as in [yev]), a sequence or a mapping. *)
Inductive ynode :=
| NAlias (a : bytes)
| NScalar (an tag : option bytes) (plain stale : bool) (s : bytes)
| NSeq (an : option bytes) (l : list ynode)
| NMap (an : option bytes) (l : list (ynode * ynode)).

(** The events that libyaml reports for a node. *)
Fixpoint events (t : ynode) : list yev :=
  match t with
  | NAlias a => [YAlias a]
  | NScalar an tag plain stale s => [YScalar an tag plain stale s]
  | NSeq an l => YSeqStart an :: List.concat (List.map events l) ++ [YSeqEnd]
  | NMap an l => YMapStart an :: List.concat (List.map (fun p => events (fst p) ++ events (snd p)) l) ++ [YMapEnd]
  end.
Definition doc_events (t : ynode) : list yev := YDocStart :: events t ++ [YDocEnd].
Definition stream_events (ts : list ynode) : list yev := YStreamStart :: List.concat (List.map doc_events ts) ++ [YStreamEnd].

(** The anchor of a node, and the anchors of a node and everything below it, in order. *)
Definition opt_list {A} (o : option A) : list A := match o with Some x => [x] | None => [] end.
Definition own (t : ynode) : option bytes :=
  match t with NAlias _ => None | NScalar an _ _ _ _ => an | NSeq an _ => an | NMap an _ => an end.
Fixpoint anchors (t : ynode) : list bytes :=
  match t with
  | NAlias _ => []
  | NScalar an _ _ _ _ => opt_list an
  | NSeq an l => opt_list an ++ List.concat (List.map anchors l)
  | NMap an l => opt_list an ++ List.concat (List.map (fun p => anchors (fst p) ++ anchors (snd p)) l)
  end.
(** No key of a mapping has an anchor. *)
Fixpoint keys_free (t : ynode) : Prop :=
  match t with
  | NSeq _ l => List.fold_right (fun x r => keys_free x /\ r) True l
  | NMap _ l => List.fold_right (fun p r => (own (fst p) = None /\ keys_free (fst p) /\ keys_free (snd p)) /\ r) True l
  | _ => True
  end.

(** ** What it means *)

Definition core_tags : list bytes := List.map s2b ["tag:yaml.org,2002:int"; "tag:yaml.org,2002:float"; "tag:yaml.org,2002:bool"; "tag:yaml.org,2002:null"]%string.
(** A scalar without a tag is a string when quoted and otherwise what its text looks like
    (property C34); a tag !!binary stands for the bytes encoded; other tags than those for
    numbers, booleans and null leave the text. *)
Definition scalar_means (tag : option bytes) (plain stale : bool) (s : bytes) (v : value) : Prop :=
  match tag with
  | None => v = if plain then guess_value (guess_scalar stale s) else VStr s
  | Some t => if beqb t (s2b "tag:yaml.org,2002:binary")
              then v = VBlob [base64_meaning s] /\ ~ In "{"%char s /\ 3 * llen s < 2^32
              else v = VStr s /\ ~ In t core_tags /\ ~ In (bchr 0) t
  end.

(** The anchors met so far, the latest first; those of collections still open have no value. *)
Definition env := list (bytes * option value).
Fixpoint lookup (a : bytes) (e : env) : option (option value) :=
  match e with [] => None | (k, o) :: t => if beqb a k then Some o else lookup a t end.
Definition bind (an : option bytes) (o : option value) (e : env) : env :=
  match an with Some a => (a, o) :: e | None => e end.
Definition of_pairs (ps : list (bytes * value)) : list (bytes * value) := fold_left (fun m p => mset (fst p) (snd p) m) ps [].

(** An alias stands for the latest node before it with that anchor.  A mapping's keys are
    taken as text, and must differ. *)
Inductive means : env -> ynode -> value -> env -> Prop :=
| MAlias e a v : lookup a e = Some (Some v) -> means e (NAlias a) v e
| MScalar e an tag plain stale s v : scalar_means tag plain stale s v ->
    means e (NScalar an tag plain stale s) v (bind an (Some v) e)
| MSeq e an l vs e' : means_list (bind an None e) l vs (e' ++ bind an None e) ->
    means e (NSeq an l) (VList vs) (e' ++ bind an (Some (VList vs)) e)
| MMap e an l ps e' : means_pairs (bind an None e) l ps (e' ++ bind an None e) -> NoDup (List.map fst ps) ->
    means e (NMap an l) (VMap (of_pairs ps)) (e' ++ bind an (Some (VMap (of_pairs ps))) e)
with means_list : env -> list ynode -> list value -> env -> Prop :=
| MNil e : means_list e [] [] e
| MCons e t v e1 l vs e2 : means e t v e1 -> means_list e1 l vs e2 -> means_list e (t :: l) (v :: vs) e2
with means_pairs : env -> list (ynode * ynode) -> list (bytes * value) -> env -> Prop :=
| MPNil e : means_pairs e [] [] e
| MPCons e k kv ks e1 t v e2 l ps e3 : means e k kv e1 -> as_string kv = Ok ks -> means e1 t v e2 -> means_pairs e2 l ps e3 ->
    means_pairs e ((k, t) :: l) ((ks, v) :: ps) e3.
Scheme means_mind := Induction for means Sort Prop
with means_list_mind := Induction for means_list Sort Prop
with means_pairs_mind := Induction for means_pairs Sort Prop.
Combined Scheme means_all from means_mind, means_list_mind, means_pairs_mind.

(** ** The names in the environment *)

Lemma bind_names an o e : List.map fst (bind an o e) = rev (opt_list an) ++ List.map fst e.
Proof. destruct an; reflexivity. Qed.
Lemma means_names :
  (forall e t v e', means e t v e' -> List.map fst e' = rev (anchors t) ++ List.map fst e) /\
  (forall e l vs e', means_list e l vs e' -> List.map fst e' = rev (List.concat (List.map anchors l)) ++ List.map fst e) /\
  (forall e l ps e', means_pairs e l ps e' -> List.map fst e' = rev (List.concat (List.map (fun p => anchors (fst p) ++ anchors (snd p)) l)) ++ List.map fst e).
Proof.
  apply means_all; cbn [anchors List.map List.concat rev app fst snd]; intros; rewrite ?map_app, ?bind_names, ?rev_app_distr in *; auto.
  - rewrite !app_assoc in *. apply app_inv_tail in H. now rewrite H.
  - rewrite !app_assoc in *. apply app_inv_tail in H. now rewrite H.
  - rewrite H0, H, app_assoc. reflexivity.
  - rewrite H1, H0, H. now rewrite !app_assoc.
Qed.

(** ** The parser builds it *)

(** The anchors the parser has seen, against the environment. *)
Definition rel (e : env) (m : list (bytes * value)) : Prop :=
  msorted m /\ forall a, mget a m = match lookup a e with Some (Some v) => Some v | _ => None end.
Lemma lookup_app a e f : lookup a (e ++ f) = match lookup a e with Some o => Some o | None => lookup a f end.
Proof. induction e as [|[k o] e IH]; cbn; [reflexivity|]. destruct (beqb a k); auto. Qed.
Lemma lookup_out a e : ~ In a (List.map fst e) -> lookup a e = None.
Proof.
  induction e as [|[k o] e IH]; cbn [lookup List.map In fst]; intros H; [reflexivity|]. destruct (beqb a k) eqn:B; [|apply IH; tauto].
  apply beqb_eq in B. exfalso. apply H. left. auto.
Qed.
Lemma rel_open e m an : rel e m -> (forall a, an = Some a -> ~ In a (List.map fst e)) -> rel (bind an None e) m.
Proof.
  intros [S H] D. split; [exact S|]. intros a. rewrite H. destruct an as [k|]; [|reflexivity]. cbn [bind lookup].
  destruct (beqb a k) eqn:B; [|reflexivity]. apply beqb_eq in B. subst. now rewrite (lookup_out k e) by (apply D; reflexivity).
Qed.
Lemma rel_close e e' m an v : rel (e' ++ bind an None e) m -> (forall a, an = Some a -> ~ In a (List.map fst e')) ->
  rel (e' ++ bind an (Some v) e) (add_anchor an v m).
Proof.
  intros [S H] D. destruct an as [k|]; [|split; assumption]. cbn [add_anchor]. specialize (D k eq_refl).
  assert (G : mget k m = None). { rewrite H, lookup_app, (lookup_out k e' D). cbn [bind lookup]. now rewrite beqb_refl. }
  rewrite G. split; [apply msorted_mset; exact S|]. intros a. rewrite mget_mset by exact S. rewrite H, !lookup_app.
  destruct (beqb a k) eqn:B.
  - apply beqb_eq in B. subst. rewrite (lookup_out k e' D). cbn [bind lookup]. now rewrite beqb_refl.
  - cbn [bind lookup]. now rewrite B.
Qed.

Lemma scalar_ok tag plain stale s v : scalar_means tag plain stale s v -> yaml_scalar tag plain stale s = Ok v.
Proof.
  destruct tag as [t|]; cbn [scalar_means yaml_scalar]; [|intros ->; destruct plain; reflexivity].
  destruct (beqb t (s2b "tag:yaml.org,2002:binary")) eqn:B.
  - apply beqb_eq in B. subst t. intros (-> & Nb & L). change (beqb (c_str _) yaml_binary) with true. cbv iota.
    rewrite base64_decode_meaning by exact Nb. cbn [rbind].
    replace (base64_decode_size _ <? _) with false; [reflexivity|]. symmetry. apply N.ltb_ge.
    pose proof (meaning_length s) as ML. unfold llen in *. unfold base64_decode_size, wrap32.
    rewrite (N.mod_small (N.of_nat (List.length s))) by lia. rewrite (N.mod_small (_ * 3)) by lia.
    pose proof (N.div_mod (N.of_nat (List.length s) * 3) 4 ltac:(lia)) as Dm. pose proof (N.mod_lt (N.of_nat (List.length s) * 3) 4 ltac:(lia)) as Mm.
    rewrite N.mod_small by lia. lia.
  - intros (-> & _ & Nz). rewrite (c_str_id t Nz). unfold yaml_binary. rewrite B. reflexivity.
Qed.

Definition with_anchors (b : ystate) (m : list (bytes * value)) : ystate := YState (y_acts b) m (y_result b) (y_done b).

Definition good (e : env) (an : list bytes) : Prop := NoDup an /\ ~ In [] an /\ forall a, In a an -> ~ In a (List.map fst e).
Lemma NoDup_app_iff {A} (l m : list A) : NoDup (l ++ m) <-> NoDup l /\ NoDup m /\ forall a, In a l -> ~ In a m.
Proof.
  induction l as [|a l IH]; cbn [app In].
  - split; [intros H; split; [constructor|split; [exact H|tauto]]|tauto].
  - split.
    + intros H. inversion H as [|? ? H1 H2]; subst. apply IH in H2 as (H2 & H3 & H4). split; [constructor; [|exact H2]|split; [exact H3|]].
      * intros K. apply H1, in_or_app. auto.
      * intros x [->|K]; [intros Q; apply H1, in_or_app; auto|auto].
    + intros (H1 & H2 & H3). inversion H1 as [|? ? H4 H5]; subst. constructor.
      * intros K. apply in_app_or in K as [K|K]; [auto|]. exact (H3 a (or_introl eq_refl) K).
      * apply IH. split; [exact H5|]. split; [exact H2|]. intros x K. apply H3. auto.
Qed.
Lemma good_left e a b : good e (a ++ b) -> good e a.
Proof. intros (H1 & H2 & H3). apply NoDup_app_iff in H1 as (H1 & _ & _). split; [exact H1|]. split; intros; [intros K; apply H2, in_or_app; auto|]. apply H3, in_or_app. auto. Qed.
Lemma good_right e e' a b : good e (a ++ b) -> List.map fst e' = rev a ++ List.map fst e -> good e' b.
Proof.
  intros (H1 & H2 & H3) E. apply NoDup_app_iff in H1 as (H1 & H4 & H5). split; [exact H4|]. split; [intros K; apply H2, in_or_app; auto|].
  intros x K Q. rewrite E in Q. apply in_app_or in Q as [Q|Q]; [apply in_rev in Q; exact (H5 x Q K)|]. apply (H3 x); [apply in_or_app; auto|exact Q].
Qed.

Lemma named_ok e an l : good e (opt_list an ++ l) -> named an = an.
Proof. intros (_ & H & _). destruct an as [[|c a]|]; cbn [named]; auto. exfalso. apply H. left. reflexivity. Qed.

Lemma run_means :
  (forall e t v e', means e t v e' -> forall b rest, rel e (y_anchors b) -> good e (anchors t) -> keys_free t -> y_acts b <> [] ->
     exists m, y_run (events t ++ rest) b = (do b' <- y_set v (own t) (with_anchors b m); y_run rest b') /\ rel e' (add_anchor (own t) v m)) /\
  (forall e l vs e', means_list e l vs e' -> forall acc n tl m0 r d rest, rel e m0 -> good e (List.concat (List.map anchors l)) ->
     List.fold_right (fun x r => keys_free x /\ r) True l ->
     exists m, y_run (List.concat (List.map events l) ++ rest) (YState ((AList acc, n) :: tl) m0 r d) =
       y_run rest (YState ((AList (acc ++ vs), n) :: tl) m r d) /\ rel e' m) /\
  (forall e l ps e', means_pairs e l ps e' -> forall k0 acc n tl m0 r d rest, rel e m0 -> good e (List.concat (List.map (fun p => anchors (fst p) ++ anchors (snd p)) l)) ->
     List.fold_right (fun p r => (own (fst p) = None /\ keys_free (fst p) /\ keys_free (snd p)) /\ r) True l ->
     exists m k1, y_run (List.concat (List.map (fun p => events (fst p) ++ events (snd p)) l) ++ rest) (YState ((AMap true k0 acc, n) :: tl) m0 r d) =
       y_run rest (YState ((AMap true k1 (fold_left (fun m p => mset (fst p) (snd p) m) ps acc), n) :: tl) m r d) /\ rel e' m).
Proof.
  apply means_all.
  - intros e a v L [acts m0 r d] rest [S R] G K Ne. exists m0. cbn [own add_anchor events app y_anchors y_acts] in *. split; [|split; assumption].
    destruct acts as [|[top n] tl]; [contradiction|]. cbn [y_run y_acts y_anchors with_anchors y_result y_done]. rewrite R, L. reflexivity.
  - intros e an tag plain stale s v H [acts m0 r d] rest R G K Ne. exists m0. cbn [own events app y_anchors y_acts anchors] in *. split.
    + destruct acts as [|[top n] tl]; [contradiction|]. cbn [y_run y_acts y_anchors with_anchors y_result y_done]. rewrite (scalar_ok _ _ _ _ _ H). reflexivity.
    + apply (rel_close e [] m0 an v).
      * cbn [app]. apply rel_open; [exact R|]. intros a ->. destruct G as (_ & _ & G). apply G. left. reflexivity.
      * intros a _ [].
  - intros e an l vs e' M IH [acts m0 r d] rest R G K Ne. cbn [own events app y_anchors y_acts anchors keys_free] in *.
    destruct acts as [|[top n] tl]; [contradiction|].
    assert (Ro : rel (bind an None e) m0). { apply rel_open; [exact R|]. intros a ->. destruct G as (_ & _ & G). apply G. left. reflexivity. }
    assert (Go : good (bind an None e) (List.concat (List.map anchors l))). { eapply good_right; [exact G|]. apply bind_names. }
    cbn [y_run y_acts]. unfold y_push. cbn [y_acts y_anchors y_result y_done]. rewrite <- app_assoc.
    destruct (IH [] an ((top, n) :: tl) m0 r d ([YSeqEnd] ++ rest) Ro Go K) as (m & -> & Rm). exists m. split.
    + cbn [app y_run y_acts y_finish y_anchors y_result y_done with_anchors]. rewrite (named_ok e an _ G). reflexivity.
    + apply rel_close; [exact Rm|]. intros a ->. pose proof (proj1 (proj2 means_names) _ _ _ _ M) as Nm. rewrite map_app in Nm. apply app_inv_tail in Nm. rewrite Nm.
      destruct G as (G & _ & _). cbn [opt_list app] in G. inversion G; subst. intros Q. apply in_rev in Q. contradiction.
  - intros e an l ps e' M IH Nd [acts m0 r d] rest R G K Ne. cbn [own events app y_anchors y_acts anchors keys_free] in *.
    destruct acts as [|[top n] tl]; [contradiction|].
    assert (Ro : rel (bind an None e) m0). { apply rel_open; [exact R|]. intros a ->. destruct G as (_ & _ & G). apply G. left. reflexivity. }
    assert (Go : good (bind an None e) (List.concat (List.map (fun p => anchors (fst p) ++ anchors (snd p)) l))). { eapply good_right; [exact G|]. apply bind_names. }
    cbn [y_run y_acts]. unfold y_push. cbn [y_acts y_anchors y_result y_done]. rewrite <- app_assoc.
    destruct (IH [] [] an ((top, n) :: tl) m0 r d ([YMapEnd] ++ rest) Ro Go K) as (m & k1 & -> & Rm). exists m. split.
    + cbn [app y_run y_acts y_finish y_anchors y_result y_done with_anchors]. rewrite (named_ok e an _ G). reflexivity.
    + apply rel_close; [exact Rm|]. intros a ->. pose proof (proj2 (proj2 means_names) _ _ _ _ M) as Nm. rewrite map_app in Nm. apply app_inv_tail in Nm. rewrite Nm.
      destruct G as (G & _ & _). cbn [opt_list app] in G. inversion G; subst. intros Q. apply in_rev in Q. contradiction.
  - intros e acc n tl m0 r d rest R G K. exists m0. cbn [List.map List.concat app]. rewrite app_nil_r. auto.
  - intros e t v e1 l vs e2 M1 IH1 M2 IH2 acc n tl m0 r d rest R G K. cbn [List.map List.concat List.fold_right] in *. destruct K as [K1 K2].
    rewrite <- app_assoc.
    destruct (IH1 (YState ((AList acc, n) :: tl) m0 r d) (List.concat (List.map events l) ++ rest) R (good_left _ _ _ G) K1 ltac:(discriminate)) as (m & -> & Rm).
    cbn [with_anchors y_set y_acts y_anchors y_result y_done rbind].
    destruct (IH2 (acc ++ [v]) n tl (add_anchor (own t) v m) r d rest Rm) as (m2 & -> & Rm2); [|exact K2|].
    { eapply good_right; [exact G|]. exact (proj1 means_names _ _ _ _ M1). }
    exists m2. rewrite <- app_assoc. auto.
  - intros e k0 acc n tl m0 r d rest R G K. exists m0, k0. auto.
  - intros e k kv ks e1 t v e2 l ps e3 M1 IH1 As M2 IH2 M3 IH3 k0 acc n tl m0 r d rest R G K. cbn [List.map List.concat List.fold_right fst snd fold_left] in *.
    destruct K as [(K0 & K1 & K2) K3]. rewrite <- !app_assoc in *.
    destruct (IH1 (YState ((AMap true k0 acc, n) :: tl) m0 r d) (events t ++ List.concat (List.map (fun p => events (fst p) ++ events (snd p)) l) ++ rest) R (good_left _ _ _ G) K1 ltac:(discriminate)) as (m & -> & Rm).
    rewrite K0 in *. cbn [add_anchor] in Rm. cbn [with_anchors y_set y_acts y_anchors y_result y_done]. rewrite As. cbn [rbind].
    pose proof (good_right _ _ _ _ G (proj1 means_names _ _ _ _ M1)) as G1.
    destruct (IH2 (YState ((AMap false ks acc, n) :: tl) m r d) (List.concat (List.map (fun p => events (fst p) ++ events (snd p)) l) ++ rest) Rm (good_left _ _ _ G1) K2 ltac:(discriminate)) as (m2 & -> & Rm2).
    cbn [with_anchors y_set y_acts y_anchors y_result y_done rbind].
    destruct (IH3 ks (mset ks v acc) n tl (add_anchor (own t) v m2) r d rest Rm2) as (m3 & k3 & -> & Rm3); [|exact K3|].
    { exact (good_right _ _ _ _ G1 (proj1 means_names _ _ _ _ M2)). }
    exists m3, k3. auto.
Qed.

(** ** Documents and streams *)

(** The document [t] by itself means [v], and is within what is covered: anchors that differ
    and are not empty, none on keys. *)
Definition doc_means (t : ynode) (v : value) : Prop :=
  (exists e, means [] t v e) /\ NoDup (anchors t) /\ ~ In [] (anchors t) /\ keys_free t.

Lemma doc_run t v rest : doc_means t v -> exists m, y_run (doc_events t ++ rest) y_new = Ok (rest, false, YState [] m v true).
Proof.
  intros ((e & M) & N1 & N2 & K). unfold doc_events, y_new. cbn [app y_run y_acts rbind]. cbn [y_anchors y_result y_done].
  rewrite <- app_assoc.
  destruct (proj1 run_means _ _ _ _ M (YState [(ABase true VNull, None)] [] VNull false) ([YDocEnd] ++ rest)) as (m & -> & _).
  - split; [constructor|reflexivity].
  - split; [exact N1|]. split; [exact N2|]. intros a _ [].
  - exact K.
  - discriminate.
  - cbn [with_anchors y_set y_acts y_anchors y_result y_done rbind app y_run y_finish]. eexists. reflexivity.
Qed.
Lemma parse_doc t v rest : doc_means t v -> y_parse (YParser (doc_events t ++ rest) false) = Ok (v, YParser rest false).
Proof.
  intros H. destruct (doc_run t v rest H) as [m E]. unfold y_parse. cbn [Nat.add y_loop yp_eof yp_events]. rewrite E. reflexivity.
Qed.
Lemma parse_first t v rest : doc_means t v -> y_parse (YParser (YStreamStart :: doc_events t ++ rest) false) = Ok (v, YParser rest false).
Proof.
  intros H. destruct (doc_run t v rest H) as [m E]. unfold y_parse. cbn [Nat.add y_loop yp_eof yp_events].
  change (y_run (YStreamStart :: doc_events t ++ rest) y_new) with (y_run (doc_events t ++ rest) y_new). rewrite E. reflexivity.
Qed.

Definition y_eof (p : yparser) : bool := yp_eof p.
Lemma yaml_serves ts vs : Forall2 doc_means ts vs -> serves y_eof y_parse (YParser (List.concat (List.map doc_events ts) ++ [YStreamEnd]) false) vs.
Proof.
  induction 1 as [|t v ts vs H F IH]; cbn [List.map List.concat app].
  - apply (ServesAsk _ _ _ (YParser [] true)); reflexivity.
  - rewrite <- app_assoc. eapply ServesDoc; [reflexivity|apply parse_doc; exact H|exact IH|discriminate].
Qed.
Lemma yaml_stream_serves ts vs : ts <> [] -> Forall2 doc_means ts vs -> serves y_eof y_parse (YParser (stream_events ts) false) vs.
Proof.
  intros Ne F. destruct F as [|t v ts vs H F]; [contradiction|]. unfold stream_events. cbn [List.map List.concat]. rewrite <- app_assoc.
  eapply ServesDoc with (q := YParser (List.concat (List.map doc_events ts) ++ [YStreamEnd]) false); [reflexivity| |apply yaml_serves; exact F|discriminate].
  apply parse_first. exact H.
Qed.

(** ** Aliases that stand for nothing *)

(** The anchor of an event. *)
Definition ev_anchor (e : yev) : list bytes :=
  match e with YScalar a _ _ _ _ => opt_list a | YSeqStart a => opt_list a | YMapStart a => opt_list a | _ => [] end.
Definition ev_anchors (es : list yev) : list bytes := List.concat (List.map ev_anchor es).
(** An alias for an anchor that no event before it has. *)
Definition dangling (t : ynode) : Prop :=
  exists pre a post, events t = pre ++ YAlias a :: post /\ ~ In a (ev_anchors pre).

Definition inner (e : yev) : Prop := match e with YStreamStart | YStreamEnd | YDocStart | YDocEnd => False | _ => True end.
Lemma events_inner t : Forall inner (events t).
Proof.
  revert t. fix IH 1. intros [a|an tag p st s|an l|an l]; cbn [events]; try (constructor; [exact I|constructor]).
  - constructor; [exact I|]. apply Forall_app. split; [|constructor; [exact I|constructor]].
    induction l as [|x l L]; cbn [List.map List.concat]; [constructor|]. apply Forall_app. split; [apply IH|exact L].
  - constructor; [exact I|]. apply Forall_app. split; [|constructor; [exact I|constructor]].
    induction l as [|[k x] l L]; cbn [List.map List.concat fst snd]; [constructor|]. apply Forall_app. split; [|exact L].
    apply Forall_app. split; apply IH.
Qed.

Definition open_elem (x : action * option bytes) : Prop := match fst x with ABase _ _ => False | _ => True end.
Definition in_doc (b : ystate) : Prop := exists p v n, y_acts b = p ++ [(ABase true v, n)] /\ Forall open_elem p.
Definition names_of (b : ystate) : list bytes := mkeys (y_anchors b) ++ List.concat (List.map (fun x => opt_list (snd x)) (y_acts b)).

Lemma add_anchor_in x a v m : In x (mkeys (add_anchor a v m)) -> In x (opt_list a) \/ In x (mkeys m).
Proof.
  destruct a as [k|]; cbn [add_anchor opt_list]; [|auto]. destruct (mget k m); [auto|]. intros H. apply mkeys_mset in H as [->|H]; cbn; auto.
Qed.
Lemma y_set_inv v a b b' x : y_set v a b = Ok b' -> in_doc b ->
  in_doc b' /\ (In x (names_of b') -> In x (names_of b) \/ In x (opt_list a)).
Proof.
  intros E (p & w & n & P & F). unfold y_set in E. unfold in_doc, names_of. rewrite P in *.
  destruct p as [|[act m] p]; cbn [app] in *.
  - injection E as <-. cbn [y_acts y_anchors]. split.
    + exists [], v, a. split; [reflexivity|constructor].
    + cbn [List.map List.concat snd]. rewrite !app_nil_r. intros H. apply in_app_or in H as [H|H]; [|auto].
      apply add_anchor_in in H as [H|H]; [auto|]. left. apply in_or_app. auto.
  - inversion F as [|? ? F1 F2]; subst. destruct act as [d u|[|] k q|l]; [destruct F1| | |].
    + destruct (as_string v); try discriminate. injection E as <-. cbn [y_acts y_anchors]. split; [|auto].
      exists ((AMap false a0 q, m) :: p), w, n. split; [reflexivity|constructor; [exact I|exact F2]].
    + injection E as <-. cbn [y_acts y_anchors]. split.
      * exists ((AMap true k (mset k v q), m) :: p), w, n. split; [reflexivity|constructor; [exact I|exact F2]].
      * intros H. apply in_app_or in H as [H|H]; [|left; apply in_or_app; auto].
        apply add_anchor_in in H as [H|H]; [auto|]. left. apply in_or_app. auto.
    + injection E as <-. cbn [y_acts y_anchors]. split.
      * exists ((AList (l ++ [v]), m) :: p), w, n. split; [reflexivity|constructor; [exact I|exact F2]].
      * intros H. apply in_app_or in H as [H|H]; [|left; apply in_or_app; auto].
        apply add_anchor_in in H as [H|H]; [auto|]. left. apply in_or_app. auto.
Qed.
Lemma named_in x n : In x (opt_list (named n)) -> In x (opt_list n).
Proof. destruct n as [[|]|]; cbn; tauto. Qed.
Lemma y_finish_inv b b' x top n t : y_finish b = Ok b' -> in_doc b -> y_acts b = (top, n) :: t -> open_elem (top, n) ->
  in_doc b' /\ (In x (names_of b') -> In x (names_of b)).
Proof.
  intros E (p & w & q & P & F) Q O. rewrite Q in P. destruct p as [|y p]; [injection P as -> -> ->; destruct O|].
  injection P as <- ->. inversion F as [|? ? _ F2]; subst.
  assert (D : in_doc (YState (p ++ [(ABase true w, q)]) (y_anchors b) (y_result b) (y_done b))) by (exists p, w, q; auto).
  assert (N : In x (names_of (YState (p ++ [(ABase true w, q)]) (y_anchors b) (y_result b) (y_done b))) \/ In x (opt_list (named n)) -> In x (names_of b)).
  { unfold names_of. rewrite Q. cbn [y_acts y_anchors List.map List.concat snd]. intros [H|H].
    - apply in_app_or in H as [H|H]; apply in_or_app; [auto|]. right. apply in_or_app. auto.
    - apply in_or_app. right. apply in_or_app. left. apply named_in. exact H. }
  unfold y_finish in E. rewrite Q in E. destruct top; [destruct O| |];
    (destruct (y_set_inv _ _ _ _ x E D) as [D' N']; split; [exact D'|]; intros H; apply N, N', H).
Qed.

Lemma alias_stuck a post : forall pre b r, Forall inner pre -> ~ In a (ev_anchors pre) -> in_doc b -> ~ In a (names_of b) ->
  y_run (pre ++ YAlias a :: post) b <> Ok r.
Proof.
  induction pre as [|e pre IH]; intros b r I N D M E.
  - cbn [app] in E. destruct D as (p & v & n & P & F).
    assert (G : mget a (y_anchors b) = None). { apply mget_None_notin. intros H. apply M. apply in_or_app. auto. }
    destruct (y_acts b) as [|[top k] t] eqn:Q; [destruct p; discriminate|]. cbn [y_run] in E. rewrite Q, G in E. discriminate.
  - inversion I as [|? ? I1 I2]; subst. unfold ev_anchors in N. cbn [List.map List.concat] in N.
    assert (N1 : ~ In a (ev_anchor e)) by (intros H; apply N, in_or_app; auto).
    assert (N2 : ~ In a (ev_anchors pre)) by (intros H; apply N, in_or_app; auto).
    destruct D as (p & v & n & P & F). assert (D : in_doc b) by (exists p, v, n; auto).
    cbn [app] in E. destruct (y_acts b) as [|[top k] t] eqn:Q; [destruct p; discriminate|]. cbn [y_run] in E. rewrite Q in E.
    destruct e as [| | | |c|an tag pl st s|an| |an|]; try destruct I1.
    + destruct (mget c (y_anchors b)); [|discriminate]. destruct (y_set v0 None b) as [b'| | | |] eqn:S; try discriminate. cbn [rbind] in E.
      destruct (y_set_inv _ _ _ _ a S D) as [D' N']. apply (IH b' r I2 N2 D'); [|exact E]. intros H. apply N' in H as [H|[]]. auto.
    + destruct (yaml_scalar tag pl st s) as [w| | | |]; try discriminate. cbn [rbind] in E.
      destruct (y_set w an b) as [b'| | | |] eqn:S; try discriminate. cbn [rbind] in E.
      destruct (y_set_inv _ _ _ _ a S D) as [D' N']. apply (IH b' r I2 N2 D'); [|exact E]. intros H. apply N' in H as [H|H]; auto.
    + refine (IH _ r I2 N2 _ _ E).
      * exists ((AList [], an) :: p), v, n. cbn [y_push y_acts]. split; [rewrite Q, P; reflexivity|constructor; [exact Logic.I|exact F]].
      * unfold names_of. cbn [y_push y_acts y_anchors List.map List.concat snd]. rewrite Q. intros H. apply in_app_or in H as [H|H].
        -- apply M. apply in_or_app. auto.
        -- apply in_app_or in H as [H|H]; [auto|]. apply M. unfold names_of. rewrite Q. apply in_or_app. auto.
    + destruct top; try discriminate. destruct (y_finish b) as [b'| | | |] eqn:S; try discriminate. cbn [rbind] in E.
      destruct (y_finish_inv _ _ a _ _ _ S D Q) as [D' N']; [exact Logic.I|]. apply (IH b' r I2 N2 D'); [|exact E]. auto.
    + refine (IH _ r I2 N2 _ _ E).
      * exists ((AMap true [] [], an) :: p), v, n. cbn [y_push y_acts]. split; [rewrite Q, P; reflexivity|constructor; [exact Logic.I|exact F]].
      * unfold names_of. cbn [y_push y_acts y_anchors List.map List.concat snd]. rewrite Q. intros H. apply in_app_or in H as [H|H].
        -- apply M. apply in_or_app. auto.
        -- apply in_app_or in H as [H|H]; [auto|]. apply M. unfold names_of. rewrite Q. apply in_or_app. auto.
    + destruct top; try discriminate. destruct (y_finish b) as [b'| | | |] eqn:S; try discriminate. cbn [rbind] in E.
      destruct (y_finish_inv _ _ a _ _ _ S D Q) as [D' N']; [exact Logic.I|]. apply (IH b' r I2 N2 D'); [|exact E]. auto.
Qed.
Lemma dangling_refused t rest r : dangling t -> y_parse (YParser (doc_events t ++ rest) false) <> Ok r.
Proof.
  intros (pre & a & post & E & N) H. pose proof (events_inner t) as I. rewrite E in I. apply Forall_app in I as [I _].
  unfold y_parse in H. cbn [Nat.add y_loop yp_eof yp_events] in H. unfold doc_events, y_new in H. rewrite E in H.
  cbn [app y_run y_acts] in H. rewrite <- !app_assoc in H. cbn [app] in H.
  match type of H with context [y_run ?l ?b] => destruct (y_run l b) as [x| | | |] eqn:R end; try discriminate. cbn [rbind] in H.
  revert R. apply alias_stuck; [exact I|exact N| |].
  - exists [], VNull, None. split; [reflexivity|constructor].
  - cbn. tauto.
Qed.
