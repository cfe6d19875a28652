(** Following a JSON pointer through a document that is a tree. *)
From Coq Require Import Permutation.
From Verif Require Import Base CNum Float Value Blob Path Numeric Convert Emit Uri Heap HeapProofs HeapSpec ValueOps HeapTree
  HeapErase HeapTreeFacts Pointer.
Open Scope N_scope.

(** The name of an element in a pointer. *)
Definition tok (e : pelem) : bytes := match e with PKey k => k | PIdx i => dec_of_N i end.
Definition tokens (p : path) : list bytes := List.map tok p.
(** Indexes as a PathElement holds them. *)
Definition idx32 (e : pelem) : Prop := match e with PIdx i => i < 2^32 | PKey _ => True end.

Lemma span_all p s : forallb p s = true -> span p s = (s, []).
Proof. induction s as [|c s IH]; cbn; auto. intros H. apply andb_prop in H. destruct H as [-> H]. rewrite (IH H). reflexivity. Qed.
Lemma digit_not_space c : is_digit c = true -> is_space c = false.
Proof. unfold is_digit, is_space. destruct c as [[] [] [] [] [] [] [] []]; vm_compute; congruence. Qed.
Lemma digit_sign c : is_digit c = true -> aeqb c "-" = false /\ aeqb c "+" = false /\ aeqb c "/" = false /\ aeqb c "~" = false /\ c <> "000"%char.
Proof. destruct c as [[] [] [] [] [] [] [] []]; vm_compute; intuition congruence. Qed.
Lemma c_str_digits s : forallb is_digit s = true -> c_str s = s.
Proof.
  induction s as [|c s IH]; auto. cbn [forallb]. intros H. apply andb_prop in H. destruct H as [H1 H2].
  destruct (digit_sign c H1) as (_ & _ & _ & _ & N). cbn [c_str]. destruct (aeqb c (bchr 0)) eqn:E; [apply aeqb_eq in E; destruct N; exact E|]. rewrite IH; auto.
Qed.
Lemma skip_space_digit c s : is_digit c = true -> skip_space (c :: s) = c :: s.
Proof. intros H. unfold skip_space. cbn. rewrite (digit_not_space _ H). reflexivity. Qed.
Lemma take_sign_digit c s : is_digit c = true -> take_sign (c :: s) = (false, c :: s).
Proof. intros H. destruct (digit_sign c H) as (A & B & _). unfold take_sign. rewrite A, B. reflexivity. Qed.
Lemma is_index_dec i : i < 2^64 -> is_index (dec_of_N i) = Some i.
Proof.
  intros H. destruct (dec_of_N_spec i) as (V & D & N & _). unfold is_index. rewrite c_str_digits by auto.
  destruct (dec_of_N i) as [|c s] eqn:E; [congruence|]. assert (D' := D). cbn in D'. apply andb_prop in D'. destruct D' as [Dc _].
  rewrite skip_space_digit, take_sign_digit, span_all by auto. cbn [skip_space span snd].
  change (skip_space []) with (@nil ascii). cbv iota. cbv zeta. rewrite V. destruct (N.ltb_spec i (2^64)); [reflexivity|lia].
Qed.
Lemma not_dash i : beqb (dec_of_N i) (s2b "-") = false.
Proof.
  destruct (beqb (dec_of_N i) (s2b "-")) eqn:B; auto. apply beqb_eq in B. destruct (dec_of_N_spec i) as (_ & D & _). rewrite B in D. discriminate.
Qed.

Lemma resolve_check_ref l st : resolve_check (RRef l) st = (Ok (Some l), st). Proof. reflexivity. Qed.
Lemma exists_rref l st : exists_ref (RRef l) st = (Ok true, st). Proof. reflexivity. Qed.
Lemma read_rref st l c : peek st l = Some c -> read_ref (RRef l) st = (Ok c, st).
Proof. intros P. unfold read_ref, resolve_throw, bind, ret, load. rewrite P. reflexivity. Qed.
Lemma type_rref st l c : peek st l = Some c -> type_ref (RRef l) st = (Ok (num_view c), st).
Proof. intros P. unfold type_ref. rewrite (bind_ok _ _ _ _ _ (read_rref _ _ _ P)). reflexivity. Qed.
Lemma at_rref st l e : at_elem (RRef l) e st = get_ref_elem l e None st.
Proof. reflexivity. Qed.

Lemma get_ref_slot st l c e s x cw d : peek st l = Some c -> base c e = Some s -> nth_error (h_heap st) s = Some x ->
  slot_get x e = Some cw -> get_ref_elem l e d st = (Ok (RRef (slot s e)), st).
Proof.
  intros P B X G. destruct e as [k|i]; cbn [get_ref_elem]; [unfold get_ref_key|unfold get_ref_index]; rewrite (bind_load _ _ _ _ P);
    destruct c; try discriminate; injection B as ->; destruct x; try discriminate; cbn [slot_get] in G.
  - unfold map_get_ref. rewrite (bind_get_map _ _ _ _ X), G. reflexivity.
  - unfold list_get_ref. rewrite (bind_get_list _ _ _ _ X), (nthN_lt _ _ _ G). reflexivity.
Qed.
Lemma get_ref_noslot st l c e s x : peek st l = Some c -> base c e = Some s -> nth_error (h_heap st) s = Some x ->
  (match e, x with PKey _, StMap _ => True | PIdx _, StList _ => True | _, _ => False end) ->
  slot_get x e = None -> get_ref_elem l e None st = (Ok (RProxy l [e]), st).
Proof.
  intros P B X K G. destruct e as [k|i]; cbn [get_ref_elem]; [unfold get_ref_key|unfold get_ref_index]; rewrite (bind_load _ _ _ _ P);
    destruct c; try discriminate; injection B as ->; destruct x; try tauto; cbn [slot_get] in G.
  - unfold map_get_ref. rewrite (bind_get_map _ _ _ _ X), G. reflexivity.
  - unfold list_get_ref. rewrite (bind_get_list _ _ _ _ X), (nthN_ge _ _ G). reflexivity.
Qed.

(** The element a component stands for, by the type of the container. *)
Definition elem_for (v : value) (k : bytes) : option pelem :=
  match v with
  | VMap _ => Some (PKey k)
  | VList _ => match is_index k with Some i => Some (PIdx (wrap32 i)) | None => None end
  | _ => None
  end.
(** The path that components lead along, when everything on it is there. *)
Fixpoint route (v : value) (ks : list bytes) : option path :=
  match ks with
  | [] => Some []
  | k :: t =>
      match elem_for v k with
      | None => None
      | Some e =>
          match vchild v e with
          | None => None
          | Some w => match route w t with Some q => Some (e :: q) | None => None end
          end
      end
  end.
Lemma elem_for_tok v e w : vchild v e = Some w -> idx32 e -> elem_for v (tok e) = Some e.
Proof.
  destruct v, e; try discriminate; cbn [elem_for tok idx32]; auto. intros _ I. rewrite is_index_dec by lia.
  replace (wrap32 i) with i by (unfold wrap32; rewrite N.mod_small; auto). reflexivity.
Qed.
Lemma route_tokens q : forall v w, vat v q = Some w -> Forall idx32 q -> route v (tokens q) = Some q.
Proof.
  induction q as [|e q IH]; intros v w A I; auto. cbn [vat] in A. destruct (vchild v e) as [y|] eqn:W; [|discriminate].
  inversion I; subst. cbn [tokens List.map route]. rewrite (elem_for_tok v e y W) by auto. rewrite W. unfold tokens in IH. rewrite (IH y w); auto.
Qed.
Lemma route_vat ks : forall v q, route v ks = Some q -> exists w, vat v q = Some w.
Proof.
  induction ks as [|k ks IH]; intros v q; cbn [route].
  - intros E; injection E as <-. cbn. eauto.
  - destruct (elem_for v k) as [e|]; [|discriminate]. destruct (vchild v e) as [w|] eqn:W; [|discriminate].
    destruct (route w ks) as [q'|] eqn:R; [|discriminate]. intros E; injection E as <-. cbn [vat]. rewrite W. eauto.
Qed.

(** One step of a pointer that does not end there. *)
Lemma pointer_step st l v c k e s x cw ks op acc : peek st l = Some c -> base c e = Some s -> nth_error (h_heap st) s = Some x ->
  slot_get x e = Some cw -> elem_for v k = Some e -> num_view c = (match v with VMap _ => VMap [] | VList _ => VList [] | _ => VNull end) -> ks <> [] ->
  pointer_op (k :: ks) (RRef l) op acc st = pointer_op ks (RRef (slot s e)) op (acc ++ [e]) st.
Proof.
  intros P B X G EF NV N. cbn [pointer_op]. rewrite (bind_ok _ _ _ _ _ (exists_rref l st)).
  rewrite (bind_ok _ _ _ _ _ (type_rref _ _ _ P)). destruct ks as [|k1 ks]; [congruence|].
  assert (E := get_ref_slot st l c e s x cw None P B X G). rewrite <- at_rref in E. rewrite NV.
  destruct v; try discriminate; cbn [elem_for] in EF.
  - destruct (is_index k); [|discriminate]. injection EF as <-. rewrite (bind_ok _ _ _ _ _ E). reflexivity.
  - injection EF as <-. rewrite (bind_ok _ _ _ _ _ E). reflexivity.
Qed.

(** [descend] with the storage. *)
Lemma descend_slot st l v c F e w : tree st l v c F -> vchild v e = Some w -> exists s x cw Fw,
  base c e = Some s /\ nth_error (h_heap st) s = Some x /\ slot_get x e = Some cw /\ In s F /\ ~ In s Fw /\
  tree st (slot s e) w cw Fw /\ (forall t, In t Fw -> In t F) /\
  (forall G, outside l G -> apart F G -> outside (slot s e) G) /\
  (forall G st' w', outside l G -> apart F G -> becomes st (slot s e) Fw G st' w' ->
    exists v', vset_elem v e w' = Some v' /\ becomes st l F G st' v') /\
  forall G st' w' cw' Fw', outside l G -> apart F G -> turns st (slot s e) Fw G st' w' cw' Fw' ->
    exists v' F', vset_elem v e w' = Some v' /\ turns st l F G st' v' c F' /\ (forall t, In t F' -> In t Fw' \/ In t F /\ ~ In t Fw).
Proof.
  intros T W. assert (T' := T). destruct T' as [P O ND OL LS]. destruct (base_child _ _ _ _ _ _ O W) as [s B].
  destruct (owns_slot _ _ _ _ e s O B) as (x & A & Fw & D & X & EF & K & SX & H & R). rewrite W in H. destruct H as (cw & G & Ow).
  destruct (descend_turns st l v c F e w T W) as (l' & cw' & Fw' & Eg & Tw & Inc & OG & Up).
  assert (E := get_elem_slot st l c e true s x cw P B X G). rewrite Eg in E. injection E as ->.
  exists s, x, cw', Fw'. assert (cw' = cw) as ->.
  { assert (H := tr_peek _ _ _ _ _ Tw). rewrite (slot_peek _ _ _ _ X) in H. congruence. }
  assert (In s F) by (rewrite EF; cbn; auto). assert (Os := tr_out _ _ _ _ _ Tw).
  split; [exact B|]. split; [exact X|]. split; [exact G|]. split; [exact H|]. split; [destruct e; exact Os|]. split; [exact Tw|].
  split; [exact Inc|]. split; [exact OG|]. split; [|exact Up]. intros G0 st' w' OG0 AG0 (c1 & F1 & Bc).
  destruct (Up G0 st' w' c1 F1 OG0 AG0 Bc) as (v' & F' & Ev & Tu & _). exists v'. split; auto. exists c, F'. exact Tu.
Qed.

Lemma get_path_one st l e ch q l' : get_elem l e ch st = (Ok (Some l'), st) -> (exists c, peek st l' = Some c) ->
  get_path (e :: q) l ch st = get_path q l' ch st.
Proof.
  intros E [c P]. cbn [get_path]. rewrite (bind_ok _ _ _ _ _ E). destruct q; auto. cbn [get_path]. rewrite (bind_load _ _ _ _ P). reflexivity.
Qed.

(** Following a whole path that is there: the object it leads to; that a change inside that object
    does not change where the path leads; and what a change of that object does to the document. *)
Lemma walk q : forall st l v c F w, tree st l v c F -> vat v q = Some w -> exists l' cw Fw,
  tree st l' w cw Fw /\ (forall t, In t Fw -> In t F) /\
  (forall G, outside l G -> apart F G -> outside l' G) /\
  (forall ch, get_path q l ch st = (Ok (Some l'), st)) /\
  (forall st', h_vars st' = h_vars st -> (forall t, ~ In t Fw -> nth_error (h_heap st') t = nth_error (h_heap st) t) ->
     peek st' l' = peek st l' /\ (exists cl, peek st' l = Some cl) /\ forall ch, get_path q l ch st' = (Ok (Some l'), st')) /\
  (forall ks0 ks op acc, route v ks0 = Some q -> ks <> [] ->
     pointer_op (ks0 ++ ks) (RRef l) op acc st = pointer_op ks (RRef l') op (acc ++ q) st) /\
  (forall G st' w', outside l G -> apart F G -> becomes st l' Fw G st' w' ->
     exists v', vset v q w' = Some v' /\ becomes st l F G st' v') /\
  (forall G st' w' cw' Fw', outside l G -> apart F G -> turns st l' Fw G st' w' cw' Fw' ->
     exists v' c' F', vset v q w' = Some v' /\ turns st l F G st' v' c' F' /\ (forall t, In t F' -> In t Fw' \/ In t F /\ ~ In t Fw)).
Proof.
  induction q as [|e q IH]; intros st l v c F w T A.
  - cbn in A. injection A as <-. exists l, c, F. assert (Pl := tr_peek _ _ _ _ _ T).
    split; [exact T|]. split; [auto|]. split; [auto|]. split; [intros ch; cbn [get_path]; rewrite (bind_load _ _ _ _ Pl); reflexivity|].
    split.
    { intros st' V H. assert (E : peek st' l = peek st l).
      { assert (O := tr_out _ _ _ _ _ T). destruct l as [x|s i|s k]; cbn [peek outside] in *; [congruence|rewrite H; auto|rewrite H; auto]. }
      split; [exact E|]. rewrite E. split; [eauto|]. intros ch. assert (E' : peek st' l = Some c) by congruence.
      cbn [get_path]. rewrite (bind_load _ _ _ _ E'). reflexivity. }
    split.
    { intros [|k0 ks0] ks op acc R N; [cbn [app]; rewrite app_nil_r; reflexivity|].
      cbn [route] in R. destruct (elem_for v k0); [|discriminate]. destruct (vchild v p); [|discriminate]. destruct (route v0 ks0); discriminate. }
    split; [intros G st' w' _ _ B; exists w'; split; auto|]. intros G st' w' cw' Fw' _ _ B. exists w', cw', Fw'. split; auto.
  - cbn [vat] in A. destruct (vchild v e) as [w1|] eqn:W; [|discriminate].
    destruct (descend_slot st l v c F e w1 T W) as (s & x & cw & Fw & B & X & G & InS & Ns & Tw & Inc & OG & Up & UpT).
    destruct (IH st (slot s e) w1 cw Fw w Tw A) as (l' & cl & Fl & T' & Inc' & OG' & Ep & St & Po & Up' & UpT').
    assert (Pl := tr_peek _ _ _ _ _ T).
    exists l', cl, Fl. split; [exact T'|]. split; [auto|]. split.
    { intros G0 O1 O2. apply OG'; [apply OG; auto|]. intros t J. apply O2, Inc, J. }
    split.
    { intros ch. rewrite (get_path_one st l e ch q (slot s e)); [apply Ep|eapply get_elem_slot; eauto|exists cw; apply Tw]. }
    split.
    { intros st' V H. destruct (St st' V H) as (E1 & (cs' & E2) & E3).
      assert (Pl' : peek st' l = peek st l).
      { assert (O := tr_out _ _ _ _ _ T). destruct l as [x0|s0 i|s0 k]; cbn [peek outside] in *; [congruence|rewrite H; auto|rewrite H; auto]. }
      assert (X' : nth_error (h_heap st') s = Some x) by (rewrite H; auto).
      split; [exact E1|]. rewrite Pl'. split; [eauto|]. intros ch. rewrite (get_path_one st' l e ch q (slot s e)); [apply E3| |eauto].
      eapply get_elem_slot; eauto. rewrite Pl'. eassumption. }
    split.
    { intros [|k0 ks0] ks op acc R N; [discriminate|]. cbn [route] in R. destruct (elem_for v k0) as [e'|] eqn:EF; [|discriminate].
      destruct (vchild v e') as [w1'|] eqn:W'; [|discriminate]. destruct (route w1' ks0) as [q'|] eqn:R'; [|discriminate].
      injection R as -> ->. rewrite W in W'. injection W' as <-. cbn [app]. erewrite pointer_step; eauto.
      - rewrite Po by auto. rewrite <- app_assoc. reflexivity.
      - assert (O := tr_owns _ _ _ _ _ T). destruct v; try discriminate; destruct c; try (destruct O; fail); reflexivity.
      - destruct ks0; cbn; [auto|discriminate]. }
    split.
    2:{ intros G0 st' w' cw' Fw' O1 O2 Bc. destruct (UpT' G0 st' w' cw' Fw') as (v1 & c1 & F1 & E1 & B1 & I1); [apply OG; auto|intros t J; apply O2, Inc, J|exact Bc|].
        destruct (UpT G0 st' v1 c1 F1 O1 O2 B1) as (v' & F' & E2 & B2 & I2). exists v', c, F'. split; [cbn [vset]; rewrite W, E1; exact E2|]. split; [exact B2|].
        intros t J. destruct (I2 t J) as [K|[K1 K2]].
        - destruct (I1 t K) as [K'|[K1 K2]]; auto.
        - right. split; auto. }
    intros G0 st' w' O1 O2 Bc. destruct (Up' G0 st' w') as (v1 & E1 & B1); [apply OG; auto|intros t J; apply O2, Inc, J|exact Bc|].
    destruct (Up G0 st' v1 O1 O2 B1) as (v' & E2 & B2). exists v'. split; auto. cbn [vset]. rewrite W, E1. exact E2.
Qed.
