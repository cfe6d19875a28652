(** Flattening and expanding, on values. *)
From Verif Require Import Base CNum Float Value Blob Path PathProofs Numeric Convert Emit Uri P_Uri Heap HeapProofs HeapSpec SharingProofs ValueOps HeapTree
  HeapErase HeapTreeFacts Pointer PointerWalk PointerOps PointerCmp PointerSem PatchSem PointerText DiffSem P_Equal P_Pointer DiffRun Ext ExtSem FlatSem.
Open Scope N_scope.

(** ** The texts of paths *)
Definition text_from (prm : ext_params) (prefix : bytes) (p : path) : bytes := fold_left (elem_prefix prm) p prefix.
Definition key_plain (d : ascii) (k : bytes) : Prop := k <> [] /\ forall c, In c k -> c <> d /\ c <> "/"%char /\ c <> "["%char /\ c <> "\"%char.
Definition brackets (prm : ext_params) (d : ascii) : Prop :=
  ep_open prm = ["["%char] /\ ep_close prm = ["]"%char] /\ d <> "["%char /\ d <> "]"%char /\ is_digit d = false.
Definition elem_plain (prm : ext_params) (d : ascii) (e : pelem) : Prop :=
  match e with PKey k => key_plain d k | PIdx i => i < 2^32 - 1 /\ brackets prm d end.
Definition prefix_plain (prm : ext_params) (d : ascii) : Prop := ep_first prm = [] \/ ep_first prm = [d] \/ ep_first prm = ["/"%char].

Lemma to_slash_app d a b : to_slash d (a ++ b) = to_slash d a ++ to_slash d b. Proof. apply map_app. Qed.
Lemma to_slash_key d k : (forall c, In c k -> c <> d) -> to_slash d k = k.
Proof.
  intros H. unfold to_slash. rewrite <- (map_id k) at 2. apply map_ext_in. intros c J. destruct (aeqb c d) eqn:E; [|reflexivity].
  apply aeqb_eq in E. destruct (H c J E).
Qed.
Lemma neqb (a b : ascii) : a <> b -> aeqb a b = false. Proof. intros N. destruct (aeqb a b) eqn:E; [|reflexivity]. apply aeqb_eq in E. congruence. Qed.
Lemma parse_plain d k : (forall c, In c k -> c <> d /\ c <> "/"%char /\ c <> "["%char /\ c <> "\"%char) -> forall out frag,
  parse_loop (PState out frag false false true) k = Ok (PState out (frag ++ k) false false true).
Proof.
  induction k as [|c k IH]; intros H out frag; cbn [parse_loop]; [rewrite app_nil_r; reflexivity|].
  destruct (H c (or_introl eq_refl)) as (_ & H1 & H2 & H3). cbn [parse_step]. rewrite !neqb by assumption. cbn [rbind]. rewrite IH by (intros x J; apply H; right; exact J).
  rewrite <- app_assoc. reflexivity.
Qed.
Lemma parse_first d k : key_plain d k -> parse_loop (PState [] [] false false false) k = Ok (PState [] k false false true).
Proof.
  intros [N H]. destruct k as [|c k]; [congruence|]. destruct (H c (or_introl eq_refl)) as (_ & H1 & H2 & H3). cbn [parse_loop parse_step]. rewrite !neqb by assumption. cbn [rbind].
  rewrite (parse_plain d) by (intros x J; apply H; right; exact J). reflexivity.
Qed.
Lemma index_text prm d i : brackets prm d -> to_slash d (ep_open prm ++ dec_of_N i ++ ep_close prm) = "["%char :: dec_of_N i ++ ["]"%char].
Proof.
  intros (-> & -> & D1 & D2 & D3). rewrite !to_slash_app. rewrite (to_slash_key d ["["%char]), (to_slash_key d (dec_of_N i)), (to_slash_key d ["]"%char]); [reflexivity| | |].
  - intros c [<-|[]]. congruence.
  - intros c J E. destruct (dec_of_N_spec i) as (_ & Hd & _ & _). rewrite forallb_forall in Hd. apply Hd in J. congruence.
  - intros c [<-|[]]. congruence.
Qed.
Lemma text_snoc prm prefix p e : text_from prm prefix (p ++ [e]) = elem_prefix prm (text_from prm prefix p) e.
Proof. unfold text_from. apply fold_left_app. Qed.
Lemma elem_prefix_nonempty prm d prefix e : elem_plain prm d e -> elem_prefix prm prefix e <> [].
Proof.
  destruct e as [k|i]; cbn [elem_plain elem_prefix].
  - intros [N _] E. apply app_eq_nil in E. tauto.
  - intros (_ & -> & _) E. apply app_eq_nil in E. destruct E as [_ E]. discriminate.
Qed.
Lemma parse_text prm d p : ep_delim prm = [d] -> prefix_plain prm d -> Forall (elem_plain prm d) p -> p <> [] ->
  text_from prm [] p <> [] /\ exists q e, p = q ++ [e] /\ parse_loop (PState [] [] false false false) (to_slash d (text_from prm [] p)) = Ok (after q e).
Proof.
  intros Dl Pf. induction p as [|e p IH] using rev_ind; intros A N; [congruence|]. apply Forall_app in A. destruct A as [A B]. inversion_clear B as [|? ? Pe _]. clear N.
  rewrite text_snoc. split; [eapply elem_prefix_nonempty; eauto|]. exists p, e. split; [reflexivity|].
  destruct p as [|f p0].
  - cbn [text_from fold_left]. destruct e as [k|i]; cbn [elem_plain elem_prefix after] in *.
    + rewrite to_slash_app, (to_slash_key d k) by (intros c J; apply Pe, J).
      destruct Pf as [->|[->| ->]]; cbn [to_slash List.map app]; [eapply parse_first; eauto| |]; rewrite ?aeqb_refl.
      * cbn [parse_loop parse_step]. change (aeqb "/" "/") with true. cbn [rbind]. rewrite (parse_plain d) by apply Pe. reflexivity.
      * assert (E : (if aeqb "/" d then "/"%char else "/"%char) = "/"%char) by (destruct (aeqb "/" d); reflexivity). rewrite E.
        cbn [parse_loop parse_step]. change (aeqb "/" "/") with true. cbn [rbind]. rewrite (parse_plain d) by apply Pe. reflexivity.
    + cbn [app]. rewrite index_text by apply Pe. cbn [parse_loop parse_step]. change (aeqb "[" "/") with false. change (aeqb "[" "[") with true. cbn [rbind].
      apply (parse_index_elem i []). lia.
  - destruct (IH A) as (Nt & q & e0 & E & L); [discriminate|]. rewrite E in *. clear IH.
    destruct e as [k|i]; cbn [elem_plain elem_prefix] in *.
    + destruct (text_from prm [] (q ++ [e0])) as [|a t] eqn:Et; [congruence|]. rewrite Dl, <- app_assoc, to_slash_app, parse_loop_app, L. cbn [rbind].
      rewrite to_slash_app, (to_slash_key d k) by (intros c J; apply Pe, J). cbn [to_slash List.map app]. rewrite aeqb_refl.
      destruct e0; cbn [after parse_loop parse_step]; change (aeqb "/" "/") with true; cbn [rbind]; rewrite (parse_plain d) by apply Pe; reflexivity.
    + rewrite to_slash_app, parse_loop_app, L. cbn [rbind]. rewrite index_text by apply Pe.
      destruct e0; cbn [after parse_loop parse_step]; change (aeqb "[" "/") with false; change (aeqb "[" "[") with true; cbn [rbind]; apply parse_index_elem; lia.
Qed.
Lemma parse_text_path prm d p : ep_delim prm = [d] -> prefix_plain prm d -> Forall (elem_plain prm d) p -> p <> [] -> parse_path (to_slash d (text_from prm [] p)) = Ok p.
Proof.
  intros Dl Pf A N. destruct (parse_text prm d p Dl Pf A N) as (_ & q & e & E & L). unfold parse_path, parse_path_into. rewrite L. cbn [rbind].
  rewrite E in *. apply Forall_app in A. destruct A as [_ A]. inversion_clear A as [|? ? Pe _]. destruct e as [[|c k]|i]; cbn [after ps_frag ps_out]; auto. destruct Pe as [[] _]. reflexivity.
Qed.

(** ** The leaves of a document *)
Inductive leafat (prm : ext_params) : value -> path -> value -> Prop :=
| leaf_here x : vleaf prm x = true -> leafat prm x [] x
| leaf_in x e y p w : vleaf prm x = false -> vchild x e = Some y -> leafat prm y p w -> leafat prm x (e :: p) w.
Lemma leafat_vat prm x p w : leafat prm x p w -> vat x p = Some w.
Proof. induction 1 as [|x e y p w _ C _ IH]; cbn [vat]; [reflexivity|]. rewrite C. exact IH. Qed.
Lemma leafat_leaf prm x p w : leafat prm x p w -> vleaf prm w = true.
Proof. induction 1; auto. Qed.

(** What flattening makes of them. *)
Definition vget (t : bytes) (v : value) : option value := vchild v (PKey t).
Lemma vget_put v k x t : mapping v -> vsorted v -> vget t (vput_key v k x) = if beqb t k then Some x else vget t v.
Proof.
  intros M S. unfold vget. destruct (mapping_put v k x M) as [E M'].
  destruct (vset_elem_child v (PKey k) x _ (PKey t) S E) as [H1 H2]. destruct (beqb t k) eqn:B.
  - apply beqb_eq in B. subst. apply H1. reflexivity.
  - destruct H2 as [H|(_ & _ & i & j & ? & ? & _)]; auto; try congruence. intros Q. injection Q as ->. rewrite beqb_refl in B. discriminate.
Qed.
Lemma put_sorted v k x : mapping v -> vsorted v -> vsorted x -> vsorted (vput_key v k x).
Proof. intros M S X. destruct (mapping_put v k x M) as [E _]. exact (vset_elem_sorted _ _ _ _ S X E). Qed.
Definition flat_spec prm (prefix : bytes) (x v v' : value) : Prop :=
  vsorted v' /\ mapping v' /\ forall t,
    (exists p w, leafat prm x p w /\ t = text_from prm prefix p /\ vget t v' = Some w) \/
    (forall p w, leafat prm x p w -> t <> text_from prm prefix p) /\ vget t v' = vget t v.
Lemma velems_in x e y : vchild x e = Some y -> In e (velems x).
Proof.
  destruct x, e; cbn [vchild velems]; try discriminate; intros C.
  - apply in_map_iff. exists (N.to_nat i). split; [rewrite N2Nat.id; reflexivity|]. apply in_seq. assert (N.to_nat i < List.length l)%nat by (apply nth_error_Some; congruence). lia.
  - apply in_map. apply mget_In in C. apply (in_map fst) in C. exact C.
Qed.
Lemma flat_children prm n x : vsorted x -> vleaf prm x = false ->
  (forall v y e prefix, vsorted v -> mapping v -> elem_prefix prm prefix e <> [] -> vchild x e = Some y -> flat_spec prm (elem_prefix prm prefix e) y v (vflat n prm v y (elem_prefix prm prefix e))) ->
  forall es v prefix, vsorted v -> mapping v -> (forall e, In e es -> In e (velems x) /\ elem_prefix prm prefix e <> []) ->
  let v' := fold_left (fun v e => vflat n prm v (or_else (vchild x e) VNull) (elem_prefix prm prefix e)) es v in
  vsorted v' /\ mapping v' /\ forall t,
    (exists e y p w, In e es /\ vchild x e = Some y /\ leafat prm y p w /\ t = text_from prm prefix (e :: p) /\ vget t v' = Some w) \/
    (forall e y p w, In e es -> vchild x e = Some y -> leafat prm y p w -> t <> text_from prm prefix (e :: p)) /\ vget t v' = vget t v.
Proof.
  intros Sx L H. induction es as [|e es IH]; intros v prefix S M Ne v'.
  - split; [exact S|]. split; [exact M|]. intros t. right. split; [intros ? ? ? ? []|reflexivity].
  - destruct (Ne e (or_introl eq_refl)) as [Je Ee]. destruct (velems_child _ _ Sx Je) as [y C].
    destruct (H v y e prefix S M Ee C) as (S1 & M1 & Q1). subst v'. cbn [fold_left]. rewrite C. cbn [or_else].
    destruct (IH _ prefix S1 M1 (fun f J => Ne f (or_intror J))) as (S2 & M2 & Q2). split; [exact S2|]. split; [exact M2|]. intros t.
    destruct (Q2 t) as [(f & z & p & w & J & Cz & Lf & Et & G)|[Nh G]].
    + left. exists f, z, p, w. split; [right; exact J|]. auto.
    + rewrite G. destruct (Q1 t) as [(p & w & Lf & Et & G1)|[Nh1 G1]].
      * left. exists e, y, p, w. split; [left; reflexivity|]. auto.
      * right. split; [|exact G1]. intros f z p w [<-|J] Cz Lf; [|eapply Nh; eauto]. rewrite C in Cz. injection Cz as <-. exact (Nh1 p w Lf).
Qed.
Lemma flat_ok prm n : forall x v prefix, vsorted x -> vsorted v -> mapping v -> prefix <> [] -> (vdepth x <= n)%nat -> flat_spec prm prefix x v (vflat n prm v x prefix).
Proof.
  induction n as [|n IH]; intros x v prefix Sx S M N D; [assert (Z := vdepth_pos x); lia|]. cbn [vflat]. destruct (vleaf prm x) eqn:L.
  - destruct prefix as [|a p0]; [congruence|]. split; [apply put_sorted; auto|]. split; [apply mapping_put, M|]. intros t. rewrite vget_put by assumption.
    destruct (beqb t (a :: p0)) eqn:B.
    + apply beqb_eq in B. left. exists [], x. split; [constructor; exact L|]. split; [exact B|reflexivity].
    + right. split; [|reflexivity]. intros p w Lf E. inversion Lf; subst; [|congruence]. cbn [text_from fold_left] in B. rewrite beqb_refl in B. discriminate.
  - destruct (flat_children prm n x Sx L) with (es := velems x) (v := v) (prefix := prefix) as (S' & M' & Q); auto.
    + intros v0 y e pr S0 M0 Ne C. apply IH; auto. { eapply (vsorted_child x); eauto. } assert (Z := vdepth_child x e y C). lia.
    + intros e J. split; [exact J|]. destruct prefix; [congruence|]. destruct e; discriminate.
    + split; [exact S'|]. split; [exact M'|]. intros t. destruct (Q t) as [(e & y & p & w & J & C & Lf & E & G)|[Nh G]].
      * left. exists (e :: p), w. split; [econstructor; eauto|]. auto.
      * right. split; [|exact G]. intros p w Lf. inversion Lf; subst; [congruence|]. eapply Nh; eauto. eapply velems_in; eauto.
Qed.
Lemma flat_root_ok prm n x : vsorted x -> vleaf prm x = false -> (vdepth x <= n)%nat -> (forall e, In e (velems x) -> elem_prefix prm [] e <> []) ->
  flat_spec prm [] x VNull (vflat n prm VNull x []).
Proof.
  intros Sx L D Ne. destruct n as [|n]; [assert (Z := vdepth_pos x); lia|]. cbn [vflat]. rewrite L.
  destruct (flat_children prm n x Sx L) with (es := velems x) (v := VNull) (prefix := @nil ascii) as (S' & M' & Q); auto.
  - intros v0 y e pr S0 M0 Ne' C. apply flat_ok; auto. { eapply (vsorted_child x); eauto. } assert (Z := vdepth_child x e y C). lia.
  - exact I.
  - left. reflexivity.
  - split; [exact S'|]. split; [exact M'|]. intros t. destruct (Q t) as [(e & y & p & w & J & C & Lf & E & G)|[Nh G]].
    + left. exists (e :: p), w. split; [econstructor; eauto|]. auto.
    + right. split; [|exact G]. intros p w Lf. inversion Lf; subst; [congruence|]. eapply Nh; eauto. eapply velems_in; eauto.
Qed.

(** ** Building a document from its leaves *)
Definition same_kind (w u : value) : Prop := match w, u with VMap _, VMap _ | VList _, VList _ => True | _, _ => False end.
Definition like prm (w u : value) : Prop := if vleaf prm u then w = u else same_kind w u.
Definition sub prm (v x : value) : Prop :=
  vsorted v /\ forall q w, vat v q = Some w -> exists u, vat x q = Some u /\ (w = VNull \/ like prm w u).
Lemma sub_unfold prm v x : sub prm v x <-> vsorted v /\ (v = VNull \/ like prm v x) /\ forall e w, vchild v e = Some w -> exists u, vchild x e = Some u /\ sub prm w u.
Proof.
  split.
  - intros [S H]. split; [exact S|]. split; [destruct (H [] v eq_refl) as (u & E & Q); injection E as <-; exact Q|].
    intros e w C. destruct (H [e] w) as (u & E & Q); [cbn; rewrite C; reflexivity|]. cbn [vat] in E. destruct (vchild x e) as [u0|] eqn:Cx; [|discriminate].
    injection E as ->. exists u. split; [reflexivity|]. split; [eapply (vsorted_child v); eauto|]. intros q w' A.
    destruct (H (e :: q) w') as (u' & E' & Q'); [cbn [vat]; rewrite C; exact A|]. cbn [vat] in E'. rewrite Cx in E'. eauto.
  - intros (S & R & H). split; [exact S|]. intros [|e q] w A; cbn [vat] in *; [injection A as <-; eauto|].
    destruct (vchild v e) as [w0|] eqn:C; [|discriminate]. destruct (H e w0 C) as (u & Cx & _ & Hu). rewrite Cx. apply Hu, A.
Qed.
Lemma sub_null prm x : sub prm VNull x.
Proof. apply sub_unfold. split; [exact I|]. split; [auto|]. intros e w C. rewrite vchild_null in C. discriminate. Qed.
Lemma like_self prm x : like prm x x.
Proof. unfold like. destruct (vleaf prm x) eqn:L; [reflexivity|]. destruct x; cbn in *; try discriminate; exact I. Qed.
Lemma sub_self prm x : vsorted x -> sub prm x x.
Proof. intros S. split; [exact S|]. intros q w A. exists w. split; [exact A|]. right. apply like_self. Qed.
Lemma place prm x p w : leafat prm x p w -> vsorted x -> forall v, sub prm v x ->
  exists v', vset v p w = Some v' /\ sub prm v' x /\ vat v' p = Some w /\ forall p2 w2, leafat prm x p2 w2 -> vat v p2 = Some w2 -> vat v' p2 = Some w2.
Proof.
  induction 1 as [x L|x e y p w L C Lf IH]; intros Sx v V.
  - exists x. split; [reflexivity|]. split; [apply sub_self, Sx|]. split; [reflexivity|]. intros p2 w2 L2 _. inversion L2; subst; [reflexivity|congruence].
  - assert (Sy := vsorted_child _ _ _ Sx C). apply sub_unfold in V. destruct V as (Sv & Lk & Ch).
    assert (Sn : sub prm (vnow v e) y).
    { unfold vnow. destruct (vchild v e) as [z|] eqn:Cv; [|apply sub_null]. destruct (Ch e z Cv) as (u & Cu & Q). rewrite C in Cu. injection Cu as <-. exact Q. }
    destruct (IH Sy _ Sn) as (y' & E1 & Sub1 & A1 & K1).
    assert (Kd := vchild_kind _ _ _ C).
    assert (Kv : v = VNull \/ kind_for e v).
    { destruct Lk as [Q|Q]; [auto|]. right. unfold like in Q. rewrite L in Q. destruct e, Kd as [m ->]; destruct v; cbn in *; try (exfalso; exact Q); eauto. }
    destruct (vset_elem v e y') as [v'|] eqn:E2; [|exfalso; destruct Kv as [->|Kv]; destruct e; try discriminate; destruct Kv as [? ->]; discriminate].
    exists v'. split; [cbn [vset]; unfold vnow in E1; rewrite E1; exact E2|].
    destruct (vset_elem_kind _ _ _ _ E2) as [_ K'].
    assert (Cc := fun f => vset_elem_child v e y' v' f Sv E2).
    split; [|split].
    + apply sub_unfold. split; [exact (vset_elem_sorted v e y' v' Sv (proj1 Sub1) E2)|]. split.
      * right. unfold like. rewrite L. destruct e, Kd as [m ->], K' as [m' ->]; exact I.
      * intros f z Cz. destruct (Cc f) as [H1 H2]. destruct (pelem_dec f e) as [->|N].
        -- rewrite (H1 eq_refl) in Cz. injection Cz as <-. eauto.
        -- destruct (H2 N) as [H|(H & H3 & i & j & -> & -> & Lij)]; [rewrite H in Cz; auto|]. rewrite H3 in Cz. injection Cz as <-.
           destruct Kd as [l ->]. cbn [vchild] in *. assert (N.to_nat j < List.length l)%nat by (apply nth_error_Some; congruence).
           destruct (nth_error l (N.to_nat i)) as [u|] eqn:Eu; [|apply nth_error_None in Eu; lia]. exists u. split; [reflexivity|apply sub_null].
    + cbn [vat]. rewrite (proj1 (Cc e) eq_refl). exact A1.
    + intros p2 w2 L2 A2. inversion L2 as [|? f z q ? L3 Cf Lz]; subst; [congruence|]. cbn [vat] in *. destruct (Cc f) as [H1 H2]. destruct (vchild v f) as [zv|] eqn:Cv; [|discriminate].
      destruct (pelem_dec f e) as [->|N].
      * rewrite (H1 eq_refl). rewrite C in Cf. injection Cf as <-. apply K1; [exact Lz|]. unfold vnow. rewrite Cv. exact A2.
      * destruct (H2 N) as [H|(H & _)]; [|congruence]. rewrite H. exact A2.
Qed.
Definition filled prm (x : value) : Prop := forall q u, vat x q = Some u -> vleaf prm u = false -> velems u <> [].
Lemma filled_child prm x e y : filled prm x -> vchild x e = Some y -> filled prm y.
Proof. intros F C q u A. apply (F (e :: q)). cbn [vat]. rewrite C. exact A. Qed.
Lemma has_leaf prm n : forall x, (vdepth x <= n)%nat -> vsorted x -> filled prm x -> exists p w, leafat prm x p w.
Proof.
  induction n as [|n IH]; intros x D S F; [assert (Z := vdepth_pos x); lia|]. destruct (vleaf prm x) eqn:L; [exists [], x; constructor; exact L|].
  assert (Ne := F [] x eq_refl L). destruct (velems x) as [|e es] eqn:Ev; [congruence|]. destruct (velems_child x e S) as [y C]; [rewrite Ev; left; reflexivity|].
  destruct (IH y) as (p & w & Q).
  - assert (Z := vdepth_child x e y C). lia.
  - eapply (vsorted_child x); eauto.
  - eapply (filled_child prm x); eauto.
  - exists (e :: p), w. econstructor; eauto.
Qed.
Lemma all_there prm n : forall x v, (vdepth x <= n)%nat -> vsorted x -> filled prm x -> sub prm v x -> (forall p w, leafat prm x p w -> vat v p = Some w) -> v = x.
Proof.
  induction n as [|n IH]; intros x v D S F V H; [assert (Z := vdepth_pos x); lia|]. destruct (vleaf prm x) eqn:L.
  - assert (Q := H [] x (leaf_here prm x L)). cbn in Q. congruence.
  - apply sub_unfold in V. destruct V as (Sv & Lk & Ch).
    assert (Each : forall e, vchild v e = vchild x e).
    { intros e. destruct (vchild x e) as [y|] eqn:C.
      - assert (Dy := vdepth_child x e y C). assert (Sy := vsorted_child _ _ _ S C). assert (Fy := filled_child prm x e y F C).
        destruct (has_leaf prm n y) as (p & w & Q); auto; [lia|]. assert (A := H (e :: p) w (leaf_in prm x e y p w L C Q)). cbn [vat] in A.
        destruct (vchild v e) as [z|] eqn:Cv; [|discriminate]. f_equal. destruct (Ch e z Cv) as (u & Cu & Su). rewrite C in Cu. injection Cu as <-.
        apply (IH y z); auto; [lia|]. intros p' w' Q'. assert (A' := H (e :: p') w' (leaf_in prm x e y p' w' L C Q')). cbn [vat] in A'. rewrite Cv in A'. exact A'.
      - destruct (vchild v e) as [z|] eqn:Cv; [|reflexivity]. destruct (Ch e z Cv) as (u & Cu & _). congruence. }
    destruct (has_leaf prm _ x D S F) as (p & w & Q). assert (A := H p w Q). inversion Q as [|? e y q ? _ C Ly]; subst; [congruence|].
    destruct Lk as [->|Lk]; [cbn [vat] in A; rewrite vchild_null in A; discriminate|]. unfold like in Lk. rewrite L in Lk.
    destruct v, x; cbn [same_kind] in Lk; try (exfalso; exact Lk); f_equal.
    + apply nth_ext_eq. intros i. assert (Z := Each (PIdx (N.of_nat i))). cbn [vchild] in Z. rewrite Nat2N.id in Z. exact Z.
    + apply vsorted_map in Sv. apply vsorted_map in S. apply msorted_ext; [apply Sv|apply S|]. intros k. exact (Each (PKey k)).
Qed.
Lemma expand_all prm d x : vsorted x -> forall fm v, sub prm v x ->
  (forall k w, In (k, w) fm -> exists p, parse_path (to_slash d k) = Ok p /\ leafat prm x p w) ->
  exists v', vexpand d v fm = Some v' /\ sub prm v' x /\ (forall p w, leafat prm x p w -> vat v p = Some w -> vat v' p = Some w) /\
    forall k w p, In (k, w) fm -> parse_path (to_slash d k) = Ok p -> vat v' p = Some w.
Proof.
  intros Sx. induction fm as [|[k w] fm IH]; intros v V H.
  - exists v. split; [reflexivity|]. split; [exact V|]. split; [auto|]. intros k w p [].
  - destruct (H k w (or_introl eq_refl)) as (p & P & Lf). destruct (place prm x p w Lf Sx v V) as (v1 & E1 & V1 & A1 & K1).
    destruct (IH v1 V1 (fun k' w' J => H k' w' (or_intror J))) as (v' & E & V' & K & A). exists v'.
    split; [cbn [vexpand]; rewrite P, E1; exact E|]. split; [exact V'|]. split; [auto|].
    intros k' w' p' [Q|J] P'; [|eapply A; eauto]. injection Q as <- <-. rewrite P in P'. injection P' as <-. apply K; auto.
Qed.
(** Flattening and expanding gives the document back. *)
Lemma flat_expand prm d n x : ep_delim prm = [d] -> prefix_plain prm d -> vsorted x -> (vdepth x <= n)%nat -> vleaf prm x = false -> filled prm x ->
  (forall p w, leafat prm x p w -> Forall (elem_plain prm d) p) ->
  exists fm, vflat n prm VNull x [] = VMap fm /\ paths_small d fm /\ vexpand d VNull fm = Some x /\
    (forall e, In e (velems x) -> elem_prefix prm [] e <> []).
Proof.
  intros Dl Pf Sx D L F Pl.
  assert (Ne : forall e, In e (velems x) -> elem_prefix prm [] e <> []).
  { intros e J. destruct (velems_child x e Sx J) as [y C]. destruct (has_leaf prm n y) as (p & w & Q).
    - assert (Z := vdepth_child x e y C). lia.
    - eapply (vsorted_child x); eauto.
    - eapply (filled_child prm x); eauto.
    - assert (A := Pl _ _ (leaf_in prm x e y p w L C Q)). inversion_clear A. eapply elem_prefix_nonempty; eauto. }
  destruct (flat_root_ok prm n x Sx L D Ne) as (S' & M' & Q).
  assert (Np : forall p w, leafat prm x p w -> p <> []) by (intros p w Lf; inversion Lf; subst; [congruence|discriminate]).
  assert (Hit : forall p w, leafat prm x p w -> vget (text_from prm [] p) (vflat n prm VNull x []) = Some w).
  { intros p w Lf. destruct (Q (text_from prm [] p)) as [(p' & w' & Lf' & Et & G)|[Nh _]]; [|destruct (Nh p w Lf eq_refl)].
    rewrite G. assert (E1 := parse_text_path prm d p Dl Pf (Pl p w Lf) (Np p w Lf)). rewrite Et, (parse_text_path prm d p' Dl Pf (Pl p' w' Lf') (Np p' w' Lf')) in E1.
    injection E1 as ->. apply leafat_vat in Lf. apply leafat_vat in Lf'. congruence. }
  destruct (has_leaf prm n x D Sx F) as (p0 & w0 & Q0). assert (H0 := Hit p0 w0 Q0).
  destruct M' as [E0|[fm E0]]; rewrite E0 in *; [discriminate|]. exists fm. split; [reflexivity|]. apply vsorted_map in S'. destruct S' as [Sm _].
  assert (Src : forall k w, In (k, w) fm -> exists p, parse_path (to_slash d k) = Ok p /\ leafat prm x p w).
  { intros k w J. apply In_mget in J; [|exact Sm]. destruct (Q k) as [(p & w' & Lf & Et & G)|[_ G]]; unfold vget in G; cbn [vchild] in G; rewrite J in G; [|discriminate].
    injection G as <-. exists p. split; [rewrite Et; apply parse_text_path; eauto|exact Lf]. }
  split.
  - intros k p J P. apply in_map_iff in J. destruct J as ([k' w] & <- & J). cbn [fst] in P. destruct (Src k' w J) as (p' & P' & Lf). rewrite P in P'. injection P' as <-.
    assert (A := Pl p w Lf). clear -A. induction A as [|e p A _ IH]; constructor; auto. destruct e; [exact I|]. cbn in A |- *. lia.
  - split; [|exact Ne]. destruct (expand_all prm d x Sx fm VNull (sub_null prm x) Src) as (v' & E & V' & _ & A). rewrite E. f_equal.
    apply (all_there prm n); auto. intros p w Lf. apply (A (text_from prm [] p)); [|apply parse_text_path; eauto]. apply mget_In. exact (Hit p w Lf).
Qed.
