(** C23: applying the JSON diff between two documents to the first yields the second. *)
From Verif Require Import Base CNum Float Value Blob Path Numeric Convert Emit Uri P_Uri P_Equal Heap HeapProofs HeapSpec SharingProofs ValueOps HeapTree
  HeapErase HeapTreeFacts P_Sharing P_Elements Pointer PointerWalk PointerOps PointerCmp PointerSem PatchSem PointerText P_Pointer P_Patch DiffSem DiffRun.
Open Scope N_scope.

(** [d = JSONDiff(src, dst); JSONPatch(src, d)] with a variable [i] for [d]. *)
Definition diff_then_patch (fuel : nat) (src dst : loc) (i : nat) : M bool :=
  let* d := json_diff fuel src dst in
  store (LVar i) d;;
  json_patch (RRef src) (LVar i).

(** ** The claim *)

(** Two separate documents; no NaN and no blob; no list of more than 2^32 - 2 entries; no key with a slash
    or a tilde; and no list of the second document shorter than the one at the same place in the
    first.  (Each of these is needed, see below.)  The patch succeeds and the first document is then
    the same as the second was. *)
Theorem C23_diff_patch_partial st src x c1 F1 dst y c2 F2 i ci fuel :
  tree st src x c1 F1 -> tree st dst y c2 F2 -> apart F1 F2 -> outside src F2 -> peek st (LVar i) = Some ci -> src <> LVar i ->
  vok x -> vok y -> plain x -> plain y -> lists_fit x -> lists_fit y ->
  (forall q w, vat x q = Some w -> Forall plain_key q) -> (forall q w, vat y q = Some w -> Forall plain_key q) ->
  (forall q l1 l2, vat x q = Some (VList l1) -> vat y q = Some (VList l2) -> (List.length l1 <= List.length l2)%nat) ->
  (vdepth x < fuel)%nat ->
  exists st' v' c' F', diff_then_patch fuel src dst i st = (Ok true, st') /\ tree st' src v' c' F' /\ same v' y.
Proof.
  intros T1 T2 Ap Os Pi Ne Vx Vy Px Py Lx Ly Kx Ky Ns Fu.
  assert (Gx : good x) by (repeat split; auto; eapply owns_sorted; apply T1). assert (Gy : good y) by (repeat split; auto; eapply owns_sorted; apply T2).
  destruct (json_diff_sem st src x c1 F1 dst y c2 F2 fuel T1 T2 Lx Ly (plain_noblob _ Px) Fu) as (st1 & t & Fs & R & X & O & ND & B).
  assert (P1 : peek st1 (LVar i) = Some ci) by (eapply extends_peek; eauto).
  destruct (store_ok st1 (LVar i) ci (CList t) P1) as (st2 & E2 & V2 & H2 & L2).
  assert (Hp : h_heap st2 = h_heap st1) by (apply nth_ext_eq; intros s; rewrite H2; cbn [patch]; destruct (nth_error (h_heap st1) s) as [[]|]; reflexivity).
  assert (T1' : tree st1 src x c1 F1) by (eapply extends_tree; eauto).
  assert (Tsrc : tree st2 src x c1 F1).
  { destruct T1' as [P Q N O1 S]. split; auto; try (rewrite Hp; exact Q).
    - destruct src as [j|s j|s k]; cbn [peek] in *; try (rewrite Hp; exact P). rewrite V2. cbn [patchv]. rewrite nth_lput. destruct (Nat.eqb_spec j i) as [->|]; [destruct Ne; reflexivity|exact P].
    - destruct src; cbn [lsorted] in *; try exact I. rewrite Hp. exact S. }
  assert (Td : tree st2 (LVar i) (VList (List.map entry (vdiff fuel (Some x) (Some y) []))) (CList t) (t :: List.concat Fs)).
  { split; [|rewrite Hp; exact O|exact ND|exact I|exact I]. exact (peek_patched _ _ _ _ _ P1 V2 (fun s _ => H2 s)). }
  assert (Low : forall s, In s F1 -> (s < hlen st)%nat) by (intros s J; unfold hlen; eapply owns_lt; [apply T1|exact J]).
  assert (ApD : apart F1 (t :: List.concat Fs)).
  { intros s J J'. destruct (B s J') as [Q|Q]; [apply Low in J; lia|]. apply (Ap s J Q). }
  assert (OsD : outside src (t :: List.concat Fs)).
  { assert (P := tr_peek _ _ _ _ _ T1). destruct src as [j|s j|s k]; cbn [outside peek] in *; auto; intros J; (destruct (nth_error (h_heap st) s) eqn:Q; [|discriminate]);
      (assert (Ls : (s < hlen st)%nat) by (unfold hlen; apply nth_error_Some; congruence)); (destruct (B s J) as [W|W]; [lia|auto]). }
  destruct (runs_all fuel x y [] x) as (v' & Sv & _ & _ & (D' & ED & RD & AD)); auto; try constructor.
  { apply Gx. }
  cbn [vset] in ED. injection ED as <-.
  assert (J := json_patch_sem st2 src x c1 F1 (LVar i) _ _ _ Tsrc Td ApD OsD I (fun q => Ne (eq_sym q))).
  unfold steps in *. cbn [steps_of] in J. rewrite map_map in J. specialize (J AD). rewrite RD in J. destruct J as (st' & c' & F' & JR & Tu).
  exists st', v', c', F'. split; [|split; [apply Tu|exact Sv]]. unfold diff_then_patch. rewrite (bind_ok _ _ _ _ _ R), (bind_ok _ _ _ _ _ E2). exact JR.
Qed.
Print Assumptions C23_diff_patch_partial.

(** Making the difference changes neither document, nor anything else. *)
Theorem C23_diff_reads_only st src x c1 F1 dst y c2 F2 fuel :
  tree st src x c1 F1 -> tree st dst y c2 F2 -> noblob x -> lists_fit x -> lists_fit y -> (vdepth x < fuel)%nat ->
  exists t st', json_diff fuel src dst st = (Ok (CList t), st') /\ (forall l c, peek st l = Some c -> peek st' l = Some c) /\
    tree st' src x c1 F1 /\ tree st' dst y c2 F2.
Proof.
  intros T1 T2 N L1 L2 Fu. destruct (json_diff_sem st src x c1 F1 dst y c2 F2 fuel T1 T2 L1 L2 N Fu) as (st1 & t & Fs & R & X & _).
  exists t, st1. split; [exact R|]. split; [intros l c P; eapply extends_peek; eauto|]. split; eapply extends_tree; eauto.
Qed.
Print Assumptions C23_diff_reads_only.

Lemma vdiff_nil n : forall a b p, enough n a -> (forall x, a = Some x -> vok x /\ vsorted x /\ plain x) -> (forall y, b = Some y -> vok y /\ vsorted y /\ plain y) ->
  vdiff n a b p = [] -> exists x y, a = Some x /\ b = Some y /\ type_of x = type_of y /\ same x y.
Proof.
  induction n as [|n IH]; intros a b p En Ga Gb E; [destruct a; cbn in En; lia|]. cbn [vdiff] in E. destruct b as [y|]; [|discriminate]. destruct a as [x|]; [|discriminate].
  destruct (vtype_eqb (type_of x) (type_of y)) eqn:T; [|discriminate]. apply vtype_eqb_eq in T. exists x, y. repeat (split; [auto|]).
  destruct (Ga x eq_refl) as (Vx & Sx & Px), (Gb y eq_refl) as (Vy & Sy & Py). destruct (C18_equal_partial x y Vx Vy Px Py) as (r & Er & H). unfold v_eq in Er.
  destruct (vcompare x y) as [z| | | |]; try discriminate. cbn in Er. injection Er as Er. destruct (z =? 0)%Z; [apply H; auto|].
  destruct (container_value x) eqn:C; [|discriminate]. apply same_children; auto. intros e. destruct (in_dec pelem_dec e (elems_of x y)) as [J|J].
  - assert (Q : vdiff n (vchild x e) (vchild y e) (p ++ [e]) = []).
    { clear -E J. induction (elems_of x y) as [|f es IHe]; [destruct J|]. cbn [flat_map] in E. apply app_eq_nil in E. destruct J as [->|J]; [apply E|apply IHe; tauto]. }
    destruct (IH (vchild x e) (vchild y e) (p ++ [e])) as (x' & y' & Ex & Ey & _ & S); auto.
    + cbn in En. destruct (vchild x e) as [w|] eqn:W; cbn; [assert (Z := vdepth_child _ _ _ W)|assert (Z := vdepth_pos x)]; lia.
    + intros w W. split; [eapply (vok_child x); eauto|]. split; [eapply (vsorted_child x); eauto|eapply (plain_child x); eauto].
    + intros w W. split; [eapply (vok_child y); eauto|]. split; [eapply (vsorted_child y); eauto|eapply (plain_child y); eauto].
    + rewrite Ex, Ey. exact S.
  - destruct (elems_cover x y e T C Sx Sy J) as [-> ->]. exact I.
Qed.
(** The difference is empty exactly when the documents are of one type and the same. *)
Theorem C23_diff_empty st src x c1 F1 dst y c2 F2 fuel :
  tree st src x c1 F1 -> tree st dst y c2 F2 -> vok x -> vok y -> plain x -> plain y -> lists_fit x -> lists_fit y -> (vdepth x < fuel)%nat ->
  exists t st' cs, json_diff fuel src dst st = (Ok (CList t), st') /\ nth_error (h_heap st') t = Some (StList cs) /\
    (cs = [] <-> type_of x = type_of y /\ same x y).
Proof.
  intros T1 T2 Vx Vy Px Py L1 L2 Fu. assert (Sx := owns_sorted _ _ _ _ (tr_owns _ _ _ _ _ T1)). assert (Sy := owns_sorted _ _ _ _ (tr_owns _ _ _ _ _ T2)).
  destruct (json_diff_sem st src x c1 F1 dst y c2 F2 fuel T1 T2 L1 L2 (plain_noblob _ Px) Fu) as (st1 & t & Fs & R & X & O & _).
  apply owns_VList in O. destruct O as (cs & Gs & E & _ & O). exists t, st1, cs. split; [exact R|]. split; [exact E|]. apply owns_list_length in O. rewrite map_length in O.
  assert (H : cs = [] <-> vdiff fuel (Some x) (Some y) [] = []).
  { split; [intros ->|intros Q; rewrite Q in O]; [destruct (vdiff fuel (Some x) (Some y) []); auto; discriminate|destruct cs; auto; discriminate]. }
  rewrite H. split.
  - intros Q. destruct (vdiff_nil fuel (Some x) (Some y) []) as (x' & y' & Ex & Ey & T & S); auto.
    + intros w W. injection W as <-. auto.
    + intros w W. injection W as <-. auto.
    + injection Ex as <-. injection Ey as <-. auto.
  - intros [T S]. destruct fuel as [|n]; [lia|]. cbn [vdiff]. rewrite (proj2 (vtype_eqb_eq _ _) T).
    destruct (C18_equal_partial x y Vx Vy Px Py) as (r & Er & Hr). unfold v_eq in Er. destruct (vcompare x y) as [z| | | |]; try discriminate. cbn in Er. injection Er as Er.
    rewrite Er, (proj2 Hr S). reflexivity.
Qed.
Print Assumptions C23_diff_empty.

(** ** What it is not *)

(** The value a cell stands for, for the examples. *)
Fixpoint shown (n : nat) (h : list storage) (c : cell) : option value :=
  match n with
  | O => None
  | S n' =>
      match c with
      | CNull => Some VNull | CBool b => Some (VBool b) | CInt z => Some (VInt z) | CUns u => Some (VUns u) | CFlt f => Some (VFlt f)
      | CStr s => match nth_error h s with Some (StStr b) => Some (VStr b) | _ => None end
      | CList s =>
          match nth_error h s with
          | Some (StList cs) =>
              option_map VList (fold_right (fun c o => match shown n' h c, o with Some v, Some l => Some (v :: l) | _, _ => None end) (Some []) cs)
          | _ => None
          end
      | CMap s =>
          match nth_error h s with
          | Some (StMap cm) =>
              option_map VMap (fold_right (fun kc o => match shown n' h (snd kc), o with Some v, Some l => Some ((fst kc, v) :: l) | _, _ => None end) (Some []) cm)
          | _ => None
          end
      | CBlob _ => None
      end
  end.
Definition var_shown (st : hstate) (i : nat) : option value := match nth_error (h_vars st) i with Some c => shown 10 (h_heap st) c | None => None end.
(** The result, and the first document afterwards. *)
Definition reached (st : hstate) : res bool * option value := let '(r, st') := diff_then_patch 10 (LVar 0) (LVar 1) 2 st in (r, var_shown st' 0).

(** A list cannot get shorter: the patch is refused. *)
Definition short_doc : hstate := HState [CList 0; CList 1; CNull] [StList [CInt 1; CInt 2]; StList [CInt 1]].
Theorem C23_shorter_list_refuted : exists st, var_shown st 0 = Some (VList [VInt 1; VInt 2]) /\ var_shown st 1 = Some (VList [VInt 1]) /\
  reached st = (Ok false, Some (VList [VInt 1; VInt 2])).
Proof. exists short_doc. vm_compute. auto. Qed.
Print Assumptions C23_shorter_list_refuted.

(** A key with a slash: another member is changed. *)
Definition slash_docs : hstate :=
  HState [CMap 1; CMap 3; CNull] [StMap [(kb, CInt 1)]; StMap [(ka, CMap 0); (s2b "a/b", CInt 1)]; StMap [(kb, CInt 1)]; StMap [(ka, CMap 2); (s2b "a/b", CInt 2)]].
Theorem C23_slash_refuted : exists st, var_shown st 1 = Some (VMap [(ka, VMap [(kb, VInt 1)]); (s2b "a/b", VInt 2)]) /\
  reached st = (Ok true, Some (VMap [(ka, VMap [(kb, VInt 2)]); (s2b "a/b", VInt 1)])).
Proof. exists slash_docs. vm_compute. auto. Qed.
Print Assumptions C23_slash_refuted.

(** A tilde: the key becomes another one. *)
Definition tilde_docs : hstate := HState [CMap 0; CMap 1; CNull] [StMap []; StMap [(s2b "~0", CInt 1)]].
Theorem C23_tilde_refuted : exists st, var_shown st 1 = Some (VMap [(s2b "~0", VInt 1)]) /\ reached st = (Ok true, Some (VMap [(s2b "~", VInt 1)])).
Proof. exists tilde_docs. vm_compute. auto. Qed.
Print Assumptions C23_tilde_refuted.

(** NaN equals every number, so there is no difference. *)
Definition nan_docs : hstate := HState [CFlt S754_nan; CFlt (S754_zero false); CNull] [].
Theorem C23_nan_refuted : exists st, var_shown st 0 = Some (VFlt S754_nan) /\ var_shown st 1 = Some (VFlt (S754_zero false)) /\
  reached st = (Ok true, Some (VFlt S754_nan)).
Proof. exists nan_docs. vm_compute. auto. Qed.
Print Assumptions C23_nan_refuted.

(** Afterwards the two documents share what was added: a change of the first one changes the second. *)
Definition share_docs : hstate := HState [CMap 0; CMap 2; CNull] [StMap []; StList [CInt 1]; StMap [(ka, CList 1)]].
Theorem C23_documents_shared_refuted : exists st st1 st2, diff_then_patch 10 (LVar 0) (LVar 1) 2 st = (Ok true, st1) /\
  var_shown st1 0 = Some (VMap [(ka, VList [VInt 1])]) /\ var_shown st1 1 = Some (VMap [(ka, VList [VInt 1])]) /\
  set_path [PKey ka; PIdx 0] (LVar 0) (CInt 9) st1 = (Ok tt, st2) /\ var_shown st2 1 = Some (VMap [(ka, VList [VInt 9])]).
Proof.
  exists share_docs. eexists. eexists. split; [vm_compute; reflexivity|]. split; [vm_compute; reflexivity|]. split; [vm_compute; reflexivity|].
  split; [vm_compute; reflexivity|]. vm_compute. reflexivity.
Qed.
Print Assumptions C23_documents_shared_refuted.

(** ** A case that meets the hypotheses *)

(** {"a":[1,2],"b":null} becomes {"a":[1,{"b":5},"b"],"c":[]}. *)
Definition kc : bytes := s2b "c".
Definition demo_x : value := VMap [(ka, VList [VInt 1; VInt 2]); (kb, VNull)].
Definition demo_y : value := VMap [(ka, VList [VInt 1; VMap [(kb, VInt 5)]; VStr kb]); (kc, VList [])].
Definition demo_docs : hstate := HState [CMap 1; CMap 6; CNull]
  [StList [CInt 1; CInt 2]; StMap [(ka, CList 0); (kb, CNull)]; StMap [(kb, CInt 5)]; StStr kb; StList [CInt 1; CMap 2; CStr 3]; StList []; StMap [(ka, CList 4); (kc, CList 5)]].
Example C23_demo_trees : tree demo_docs (LVar 0) demo_x (CMap 1) [1%nat; 0%nat] /\ tree demo_docs (LVar 1) demo_y (CMap 6) [6%nat; 4%nat; 2%nat; 5%nat].
Proof.
  split; (split; [reflexivity| |repeat constructor; cbn; lia|exact I|exact I]).
  - apply owns_VMap. exists [(ka, CList 0); (kb, CNull)], [[0%nat]; []]. cbn [demo_x]. repeat split.
    + intros k' [<-|[]]. reflexivity.
    + intros k' [].
    + apply owns_VList. exists [CInt 1; CInt 2], [[]; []]. repeat split.
  - apply owns_VMap. exists [(ka, CList 4); (kc, CList 5)], [[4%nat; 2%nat]; [5%nat]]. repeat split.
    + intros k' [<-|[]]. reflexivity.
    + intros k' [].
    + apply owns_VList. exists [CInt 1; CMap 2; CStr 3], [[]; [2%nat]; []]. repeat split.
      apply owns_VMap. exists [(kb, CInt 5)], [[]]. repeat split. intros k' [].
    + apply owns_VList. exists [], []. repeat split.
Qed.
Fixpoint keysb (v : value) : bool :=
  match v with
  | VList l => forallb keysb l
  | VMap m => forallb (fun kv => forallb (fun c => negb (aeqb c "/") && negb (aeqb c "~")) (fst kv) && keysb (snd kv)) m
  | _ => true
  end.
Lemma keysb_sound q : forall v w, keysb v = true -> vat v q = Some w -> Forall plain_key q.
Proof.
  induction q as [|e q IH]; intros v w B A; [constructor|]. cbn [vat] in A. destruct (vchild v e) as [y|] eqn:C; [|discriminate].
  destruct v, e; try discriminate; cbn [keysb vchild] in *; rewrite forallb_forall in B.
  - constructor; [exact I|]. apply (IH y w); auto. apply B. eapply nth_error_In; eauto.
  - apply mget_In in C. apply B in C. cbn [fst snd] in C. apply andb_prop in C. destruct C as [C1 C2]. constructor; [|eauto].
    rewrite forallb_forall in C1. split; intros J; apply C1 in J; discriminate.
Qed.
Fixpoint shrinkb (n : nat) (x y : value) : bool :=
  match n with
  | O => false
  | S n' =>
      match x, y with
      | VList l, VList r => (List.length l <=? List.length r)%nat && forallb (fun p => shrinkb n' (fst p) (snd p)) (combine l r)
      | VMap m, VMap r => forallb (fun kv => match mget (fst kv) r with Some b => shrinkb n' (snd kv) b | None => true end) m
      | _, _ => true
      end
  end.
Lemma combine_nth_error {A B} (l : list A) : forall (r : list B) i a b, nth_error l i = Some a -> nth_error r i = Some b -> In (a, b) (combine l r).
Proof.
  induction l as [|x l IH]; intros [|y r] [|i] a b; cbn; try discriminate; [|eauto]. intros E1 E2. injection E1 as ->. injection E2 as ->. auto.
Qed.
Lemma shrinkb_sound n : forall x y, shrinkb n x y = true -> noshrink x y.
Proof.
  induction n as [|n IH]; intros x y B; [discriminate|]. intros [|e q] l1 l2 A1 A2; cbn [vat] in *.
  - injection A1 as ->. injection A2 as ->. cbn [shrinkb] in B. apply andb_prop in B. apply Nat.leb_le, B.
  - destruct (vchild x e) as [a|] eqn:C1; [|discriminate]. destruct (vchild y e) as [b|] eqn:C2; [|discriminate]. assert (H : shrinkb n a b = true); [|exact (IH a b H q l1 l2 A1 A2)].
    destruct x, e; try discriminate; destruct y; try discriminate; cbn [shrinkb vchild] in *.
    + apply andb_prop in B. destruct B as [_ B]. rewrite forallb_forall in B. apply (B (a, b)). eapply combine_nth_error; eauto.
    + rewrite forallb_forall in B. apply mget_In in C1. apply B in C1. cbn [fst snd] in C1. rewrite C2 in C1. exact C1.
Qed.
(** All the hypotheses hold, and the theorem gives the result. *)
Example C23_demo_hypotheses : exists st' v' c' F', diff_then_patch 10 (LVar 0) (LVar 1) 2 demo_docs = (Ok true, st') /\ tree st' (LVar 0) v' c' F' /\ same v' demo_y.
Proof.
  destruct C23_demo_trees as [T1 T2]. apply (C23_diff_patch_partial demo_docs (LVar 0) demo_x _ _ (LVar 1) demo_y _ _ 2 CNull 10 T1 T2).
  - intros s J J'. cbn in J, J'. lia.
  - exact I.
  - reflexivity.
  - discriminate.
  - cbn. repeat split; try lia; try (intros k' [<-|[]]; reflexivity); intros k' [].
  - cbn. repeat split; try lia; try (intros k' [<-|[]]; reflexivity); intros k' [].
  - repeat (constructor; cbn [snd]); eapply plain_num; reflexivity.
  - repeat (constructor; cbn [snd]); eapply plain_num; reflexivity.
  - intros q vs. apply fitb_sound. reflexivity.
  - intros q vs. apply fitb_sound. reflexivity.
  - intros q w. apply keysb_sound. reflexivity.
  - intros q w. apply keysb_sound. reflexivity.
  - apply (shrinkb_sound 10). reflexivity.
  - cbn. lia.
Qed.
Example C23_demo : reached demo_docs = (Ok true, Some demo_y).
Proof. vm_compute. reflexivity. Qed.
