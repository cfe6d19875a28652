(** What a JSON patch does to a document that is a tree: all of its steps, or nothing. *)
From Verif Require Import Base CNum Float Value Blob Path Numeric Convert Emit Uri Heap HeapProofs HeapSpec SharingProofs ValueOps HeapTree
  HeapErase HeapTreeFacts Pointer PointerWalk PointerOps PointerCmp PointerSem.
Open Scope N_scope.

(** ** The steps of a patch, RFC 6902 *)
Inductive pstep :=
  | SAdd (ks : list bytes) (x : value) | SRemove (ks : list bytes) | SReplace (ks : list bytes) (x : value)
  | SMove (from : list bytes) (to : option (list bytes)) | SCopy (from to : list bytes) | STest (ks : list bytes) (x : value)
  | SFail.

(** The text of a member; a number or boolean is converted to text. *)
Definition ptext (d : value) (k : bytes) : option bytes :=
  match vchild d (PKey k) with Some w => match as_string w with Ok t => Some t | _ => None end | None => None end.
Definition pointer_of (d : value) (k : bytes) : option (list bytes) :=
  match ptext d k with Some t => components t | None => None end.
Definition decode (d : value) : pstep :=
  match ptext d (s2b "op") with
  | None => SFail
  | Some op =>
      if beqb op (s2b "add") then
        match pointer_of d (s2b "path"), vchild d (PKey (s2b "value")) with Some ks, Some x => SAdd ks x | _, _ => SFail end
      else if beqb op (s2b "remove") then
        match pointer_of d (s2b "path") with Some ks => SRemove ks | None => SFail end
      else if beqb op (s2b "replace") then
        match pointer_of d (s2b "path"), vchild d (PKey (s2b "value")) with Some ks, Some x => SReplace ks x | _, _ => SFail end
      else if beqb op (s2b "move") then
        match pointer_of d (s2b "from") with Some ks => SMove ks (pointer_of d (s2b "path")) | None => SFail end
      else if beqb op (s2b "copy") then
        match pointer_of d (s2b "from"), pointer_of d (s2b "path") with Some ks, Some to => SCopy ks to | _, _ => SFail end
      else if beqb op (s2b "test") then
        match pointer_of d (s2b "path"), vchild d (PKey (s2b "value")) with Some ks, Some x => STest ks x | _, _ => SFail end
      else SFail
  end.
Definition steps_of (d : value) : list pstep := match d with VList vs => List.map decode vs | _ => [decode d] end.

(** The document after a step; [None]: the step fails. *)
Definition add_through (v : value) (ks : list bytes) (x : value) : option value :=
  match spot v ks with Some p => radd v p x | None => None end.
Definition step (v : value) (s : pstep) : option value :=
  match s with
  | SAdd ks x => add_through v ks x
  | SRemove ks => match route v ks with Some p => rremove v p | None => None end
  | SReplace ks x => match route v ks with Some p => rreplace v p x | None => None end
  | SMove from to =>
      match route v from with
      | Some p =>
          match vat v p, rremove v p, to with
          | Some w, Some v1, Some ks => add_through v1 ks w
          | _, _, _ => None
          end
      | None => None
      end
  | SCopy from to =>
      match route v from with
      | Some p => match vat v p with Some w => add_through v to w | None => None end
      | None => None
      end
  | STest ks x =>
      match route v ks with
      | Some p =>
          match vat v p with
          | Some w => match vcompare w x with Ok z => if (z =? 0)%Z then Some v else None | _ => None end
          | None => None
          end
      | None => None
      end
  | SFail => None
  end.
(** The library throws when an entry of a list is to be removed. *)
Definition refused (v : value) (s : pstep) : bool :=
  match s with
  | SRemove ks | SMove ks _ => match route v ks with Some p => in_list v p | None => false end
  | _ => false
  end.
Definition outcome (v : value) (s : pstep) : option value := if refused v s then None else step v s.

(** What the theorems assume: lists are not too long, nothing is added behind the end of a list, a copied
    value is no list and no map (it would be shared), and nothing is compared with a blob in the document. *)
Definition add_fits (v : value) (ks : list bytes) : Prop :=
  lists_fit v /\ forall p, spot v ks = Some p -> radd v p VNull <> None.
Definition admissible (v : value) (s : pstep) : Prop :=
  match s with
  | SAdd ks _ => add_fits v ks
  | SMove from (Some to) =>
      forall p v1, route v from = Some p -> in_list v p = false -> rremove v p = Some v1 -> add_fits v1 to
  | SCopy from to =>
      add_fits v to /\ forall p w, route v from = Some p -> vat v p = Some w -> match w with VList _ | VMap _ => False | _ => True end
  | STest _ _ => noblob v
  | _ => True
  end.
(** The steps that JSONPatchUndo can take back: nothing in the middle of a list is added or replaced. *)
Definition add_undoable (v : value) (ks : list bytes) : Prop := forall p, spot v ks = Some p -> undoable v p.
Definition reversible (v : value) (s : pstep) : Prop :=
  match s with
  | SAdd ks _ => add_undoable v ks
  | SReplace ks _ => forall p, route v ks = Some p -> in_list v p = false
  | SMove from (Some to) => forall p v1, route v from = Some p -> rremove v p = Some v1 -> add_undoable v1 to
  | SCopy _ to => add_undoable v to
  | _ => True
  end.
Fixpoint run (v : value) (ss : list pstep) : option value :=
  match ss with
  | [] => Some v
  | s :: t => match outcome v s with Some v' => run v' t | None => None end
  end.
Fixpoint along (P : value -> pstep -> Prop) (v : value) (ss : list pstep) : Prop :=
  match ss with
  | [] => True
  | s :: t => P v s /\ match outcome v s with Some v' => along P v' t | None => True end
  end.

(** ** Members of a step *)
Lemma child_owned h v c F e w : owns h v c F -> NoDup F -> vchild v e = Some w -> exists s x cw Fw,
  base c e = Some s /\ nth_error h s = Some x /\ slot_get x e = Some cw /\ owns h w cw Fw /\ NoDup Fw /\ (forall t, In t Fw -> In t F).
Proof.
  intros O ND W. destruct (base_child _ _ _ _ _ _ O W) as [s B].
  destruct (owns_slot _ _ _ _ e s O B) as (x & A & Fw & D & X & EF & K & SX & H & R). rewrite W in H. destruct H as (cw & G & Ow).
  exists s, x, cw, Fw. rewrite EF in ND. destruct (NoDup_mid _ _ _ _ ND) as (N1 & _). repeat split; auto.
  intros t J. rewrite EF. cbn. rewrite !in_app_iff. auto.
Qed.
Lemma member_some st d dv dc Fd k w : peek st d = Some dc -> owns (h_heap st) dv dc Fd -> NoDup Fd -> vchild dv (PKey k) = Some w ->
  exists cw Fw, member d k st = (Ok cw, st) /\ owns (h_heap st) w cw Fw /\ NoDup Fw /\ (forall t, In t Fw -> In t Fd).
Proof.
  intros P O N W. destruct (child_owned _ _ _ _ _ _ O N W) as (s & x & cw & Fw & B & X & G & Ow & Nw & I). exists cw, Fw.
  split; [|auto]. apply (get_ref st d dc (PKey k) s x cw P B X G).
Qed.
Lemma member_none st d dv dc Fd k : peek st d = Some dc -> owns (h_heap st) dv dc Fd -> vchild dv (PKey k) = None ->
  exists e, member d k st = (Throw e, st).
Proof.
  intros P O W. unfold member, get. cbn [resolve_throw]. unfold bind at 1. cbn [ret]. cbn [get_elem].
  assert (H : exists e, get_key d k true st = (Throw e, st)).
  { unfold get_key. rewrite (bind_load _ _ _ _ P). destruct dc; try (eexists; reflexivity).
    destruct dv; try (exfalso; exact O). apply owns_VMap in O. destruct O as (cm & Fs & X & _ & _ & K & _). rewrite (bind_get_map _ _ _ _ X).
    cbn [vchild] in W. destruct (mget k cm) eqn:G; [|eexists; reflexivity].
    apply mget_In in G. apply mget_notin in W. destruct W. unfold mkeys. rewrite K. apply (in_map fst) in G. exact G. }
  destruct H as [e H]. exists e. apply bind_throw, H.
Qed.
Lemma cell_string_owned st w cw Fw : owns (h_heap st) w cw Fw -> cell_string cw st = (as_string w, st).
Proof.
  destruct w, cw; cbn [owns]; intros O; try (exfalso; exact O); try (destruct O as [E _]); try subst; try reflexivity.
  cbn [cell_string]. unfold get_str, get_storage, bind. rewrite E. reflexivity.
Qed.
Lemma member_text_sem st d dv dc Fd k : peek st d = Some dc -> owns (h_heap st) dv dc Fd -> NoDup Fd ->
  match ptext dv k with
  | Some t => member_text d k st = (Ok t, st)
  | None => exists e, member_text d k st = (Throw e, st)
  end.
Proof.
  intros P O N. unfold ptext, member_text. destruct (vchild dv (PKey k)) as [w|] eqn:W.
  - destruct (member_some _ _ _ _ _ _ _ P O N W) as (cw & Fw & E & Ow & _). rewrite (bind_ok _ _ _ _ _ E), (cell_string_owned _ _ _ _ Ow).
    destruct w; cbn [as_string]; eauto. destruct b; reflexivity.
  - destruct (member_none _ _ _ _ _ _ P O W) as [e E]. exists e. apply bind_throw, E.
Qed.
Lemma attempt_ok {A} (m : M A) st a st' : m st = (Ok a, st') -> attempt m st = (Ok (inl a), st').
Proof. unfold attempt. intros ->. reflexivity. Qed.
Lemma attempt_throw {A} (m : M A) st e st' : m st = (Throw e, st') -> attempt m st = (Ok (inr e), st').
Proof. unfold attempt. intros ->. reflexivity. Qed.
Lemma radd_any v p x y : radd v p x = None -> p <> [] -> radd v p y = None.
Proof.
  intros E N. destruct (list_cases p) as [->|(q & e & ->)]; [congruence|]. rewrite radd_last in *. destruct (vat v q) as [w|] eqn:W; auto.
  assert (VS : forall w', w <> VNull -> (exists z, vset v q w' = Some z)).
  { clear -W. revert v w W. induction q as [|e q IH]; intros v w W w' N; [eexists; reflexivity|]. cbn [vat] in W. cbn [vset].
    destruct (vchild v e) as [y|] eqn:Y; [|discriminate]. destruct (IH y w W w' N) as (z & ->). destruct v, e; try discriminate; cbn [vset_elem]; eauto. }
  destruct w, e; cbn [rinsert] in *; auto.
  - destruct (N.to_nat i <=? List.length l)%nat; auto. destruct (VS (VList (insert_at (N.to_nat i) x l))) as (z & Z); [discriminate|]. congruence.
  - destruct (VS (VMap (mset k x m))) as (z & Z); [discriminate|]. congruence.
Qed.

(** ** One addition through a pointer, as the steps make it *)
Lemma add_step st l v c F p t x cx G : tree st l v c F -> add_fits v t -> components p = Some t ->
  owns (h_heap st) x cx G -> NoDup G -> apart F G -> outside l G ->
  match add_through v t x with
  | Some v' => exists o st', do_op p (RRef l) (PAdd cx) st = (Ok o, st') /\ o_success o = true /\ becomes st l F G st' v' /\
      (add_undoable v t -> undo_one (RRef l) (add_undo o) st' = (Ok tt, st))
  | None => exists e, do_op p (RRef l) (PAdd cx) st = (Throw e, st)
  end.
Proof.
  intros T (LF & AF) C Ox NG AG OG. unfold do_op, add_through. rewrite C. assert (H := op_add st l v c F t x cx G T LF Ox NG AG OG).
  destruct (spot v t) as [q|] eqn:S; [|exact H]. destruct (radd v q x) as [v'|] eqn:R.
  - destruct H as (r & old & st' & E & B & U). exists (OpRes r q cx old true), st'. split; [exact E|]. split; [reflexivity|]. split; [exact B|].
    intros AU. unfold add_undo. cbn [o_old o_path]. apply U. apply AU. exact S.
  - destruct q as [|e q]; [discriminate|]. destruct (AF _ eq_refl). eapply radd_any; [exact R|discriminate].
Qed.
Lemma undo_all_one r u st st' : undo_one r u st = (Ok tt, st') -> undo_all r [u] st = (Ok tt, st').
Proof. intros E. cbn [undo_all]. rewrite (bind_ok _ _ _ _ _ E). reflexivity. Qed.
Lemma undo_all_app r us vs st st1 st2 : undo_all r us st = (Ok tt, st1) -> undo_all r vs st1 = (Ok tt, st2) -> undo_all r (us ++ vs) st = (Ok tt, st2).
Proof.
  revert st; induction us as [|u us IH]; intros st E1 E2; cbn [app undo_all] in *.
  - injection E1 as <-. exact E2.
  - unfold bind in *. destruct (undo_one r u st) as [[[]| | | |] st3]; try discriminate. apply IH; auto.
Qed.

(** ** One step *)
Lemma patch_op_sem st l v c F d dv dc Fd : tree st l v c F -> peek st d = Some dc -> owns (h_heap st) dv dc Fd -> NoDup Fd -> apart F Fd -> outside l Fd ->
  outside d F -> d <> l -> admissible v (decode dv) ->
  match outcome v (decode dv) with
  | Some v' => exists us st' c' F', patch_op (RRef l) d st = (Ok (us, Some true), st') /\ turns st l (F ++ Fd) [] st' v' c' F' /\
      (reversible v (decode dv) -> undo_all (RRef l) us st' = (Ok tt, st))
  | None => exists us b st', patch_op (RRef l) d st = (Ok (us, b), st') /\ b <> Some true /\ undo_all (RRef l) us st' = (Ok tt, st)
  end.
Proof.
  intros T P O ND AF OF OD DL. unfold patch_op.
  assert (Mt := fun k => member_text_sem st d dv dc Fd k P O ND).
  assert (Fail : forall (m : M (list undo * option bool)) e, m st = (Throw e, st) ->
    exists us b st', (let* x := attempt m in match x with inl y => ret y | inr _ => ret ([], None) end) st = (Ok (us, b), st') /\ b <> Some true /\ undo_all (RRef l) us st' = (Ok tt, st)).
  { intros m e E. exists [], None, st. rewrite (bind_ok _ _ _ _ _ (attempt_throw _ _ _ _ E)). split; [reflexivity|]. split; [discriminate|reflexivity]. }
  assert (FF : forall t, In t F -> In t (F ++ Fd)) by (intros; apply in_or_app; auto).
  assert (Fi : forall Fw, (forall t, In t Fw -> In t Fd) -> apart F Fw /\ outside l Fw /\ forall t, In t Fw -> In t (F ++ Fd)).
  { intros Fw I. split; [intros t J K; apply (AF t); auto|]. split; [eapply outside_incl; eauto|]. intros t J. apply in_or_app; auto. }
  (* the pointers *)
  assert (Pt : forall k, match pointer_of dv k with
    | Some ks => exists t, member_text d k st = (Ok t, st) /\ components t = Some ks
    | None => (exists e, member_text d k st = (Throw e, st)) \/ exists t, member_text d k st = (Ok t, st) /\ components t = None end).
  { intros k. unfold pointer_of. specialize (Mt k). destruct (ptext dv k) as [t|]; [|auto]. destruct (components t) eqn:C; eauto. }
  unfold decode. assert (Mo := Mt (s2b "op")). destruct (ptext dv (s2b "op")) as [oper|].
  2:{ intros _. destruct Mo as [e E]. cbn. eapply Fail. apply bind_throw, E. }
  assert (Body : forall m, (let* oper := member_text d (s2b "op") in patch_body (RRef l) d oper) st = m -> patch_body (RRef l) d oper st = m).
  { intros m <-. rewrite (bind_ok _ _ _ _ _ Mo). reflexivity. }
  assert (Run : forall m, patch_body (RRef l) d oper st = m -> (let* oper := member_text d (s2b "op") in patch_body (RRef l) d oper) st = m).
  { intros m <-. rewrite (bind_ok _ _ _ _ _ Mo). reflexivity. }
  clear Body. assert (Good : forall us b st', patch_body (RRef l) d oper st = (Ok (us, b), st') ->
    (let* x := attempt (let* oper := member_text d (s2b "op") in patch_body (RRef l) d oper) in match x with inl y => ret y | inr _ => ret ([], None) end) st = (Ok (us, b), st')).
  { intros us b st' E. apply Run in E. rewrite (bind_ok _ _ _ _ _ (attempt_ok _ _ _ _ E)). reflexivity. }
  assert (Bad : (exists e, patch_body (RRef l) d oper st = (Throw e, st)) ->
    exists us b st', (let* x := attempt (let* oper := member_text d (s2b "op") in patch_body (RRef l) d oper) in match x with inl y => ret y | inr _ => ret ([], None) end) st = (Ok (us, b), st') /\ b <> Some true /\ undo_all (RRef l) us st' = (Ok tt, st)).
  { intros [e E]. eapply Fail. apply Run, E. }
  unfold patch_body in Run, Good, Bad. clear Run Fail.
  assert (NoPtr : forall k A (f : bytes -> M A), pointer_of dv k = None ->
     (forall t, components t = None -> exists e, f t st = (Throw e, st)) -> exists e, (let* t := member_text d k in f t) st = (Throw e, st)).
  { intros k A f PN H. specialize (Pt k). rewrite PN in Pt. destruct Pt as [[e E]|(t & E & C)].
    - exists e. apply bind_throw, E.
    - rewrite (bind_ok _ _ _ _ _ E). auto. }
  assert (DoNone : forall t op, components t = None -> do_op t (RRef l) op st = (Throw RuntimeError, st)) by (intros t op C; unfold do_op; rewrite C; reflexivity).
  destruct (beqb oper (s2b "add")) eqn:B1.
  { (* add *)
    destruct (pointer_of dv (s2b "path")) as [ks|] eqn:PO.
    2:{ intros _. cbn. apply Bad. eapply NoPtr; eauto. intros t C.
        destruct (vchild dv (PKey (s2b "value"))) as [x|] eqn:VX.
        - destruct (member_some _ _ _ _ _ _ _ P O ND VX) as (cx & Fx & E & _). rewrite (bind_ok _ _ _ _ _ E). eexists. apply bind_throw, DoNone, C.
        - destruct (member_none _ _ _ _ _ _ P O VX) as [e E]. exists e. apply bind_throw, E. }
    assert (Pp := Pt (s2b "path")). rewrite PO in Pp. destruct Pp as (t & Et & Ct).
    destruct (vchild dv (PKey (s2b "value"))) as [x|] eqn:VX.
    2:{ intros _. cbn. apply Bad. rewrite (bind_ok _ _ _ _ _ Et). destruct (member_none _ _ _ _ _ _ P O VX) as [e E]. exists e. apply bind_throw, E. }
    destruct (member_some _ _ _ _ _ _ _ P O ND VX) as (cx & Fx & E & Ox & Nx & Ix). destruct (Fi Fx Ix) as (A1 & A2 & A3).
    cbn [admissible reversible]. intros Ad. unfold outcome. cbn [refused step]. assert (H := add_step st l v c F t ks x cx Fx T Ad Ct Ox Nx A1 A2).
    destruct (add_through v ks x) as [v'|].
    - destruct H as (o & st' & Eo & So & (c' & F' & Tu) & Un). exists [add_undo o], st', c', F'. split.
      + apply Good. rewrite (bind_ok _ _ _ _ _ Et), (bind_ok _ _ _ _ _ E), (bind_ok _ _ _ _ _ Eo). rewrite So. reflexivity.
      + split; [eapply turns_weak; eauto|]. intros R. apply undo_all_one; auto.
    - destruct H as [e H]. apply Bad. exists e. rewrite (bind_ok _ _ _ _ _ Et), (bind_ok _ _ _ _ _ E). apply bind_throw, H. }
  destruct (beqb oper (s2b "remove")) eqn:B2.
  { destruct (pointer_of dv (s2b "path")) as [ks|] eqn:PO.
    2:{ intros _. cbn. apply Bad. eapply NoPtr; eauto. intros t C. eexists. apply bind_throw, DoNone, C. }
    assert (Pp := Pt (s2b "path")). rewrite PO in Pp. destruct Pp as (t & Et & Ct). intros _. unfold outcome. cbn [refused step].
    assert (H := op_remove st l v c F ks T). destruct (route v ks) as [p|] eqn:R.
    2:{ destruct H as [e H]. apply Bad. exists e. rewrite (bind_ok _ _ _ _ _ Et). apply bind_throw. unfold do_op. rewrite Ct. exact H. }
    destruct (in_list v p) eqn:IL.
    { destruct H as [e H]. apply Bad. exists e. rewrite (bind_ok _ _ _ _ _ Et). apply bind_throw. unfold do_op. rewrite Ct. exact H. }
    destruct H as (w & v' & cw & Fw & c' & F' & r & st' & W & RR & E & Tu & Ow & Nw & Ap & Iw & U). rewrite RR.
    exists [UAdd p cw], st', c', F'. split.
    - apply Good. rewrite (bind_ok _ _ _ _ _ Et). unfold do_op. rewrite Ct, (bind_ok _ _ _ _ _ E). reflexivity.
    - split; [eapply turns_weak; eauto; intros t0 []|]. intros _. apply undo_all_one, U. }
  destruct (beqb oper (s2b "replace")) eqn:B3.
  { assert (Gv : forall ks t p l' w cw Fw, components t = Some ks -> member_text d (s2b "path") st = (Ok t, st) ->
       pointer_op ks (RRef l) PGet [] st = (Ok (OpRes (RRef l') p cw None true), st) -> tree st l' w cw Fw ->
       forall r, (let* c0 := member d (s2b "value") in write_ref (RRef l') c0;; ret ([UAdd p cw], Some true)) st = r ->
       (let* p0 := member_text d (s2b "path") in let* o := do_op p0 (RRef l) PGet in let* ex := exists_ref (o_ref o) in
        if ex then let* c0 := member d (s2b "value") in write_ref (o_ref o) c0;; ret ([UAdd (o_path o) (o_value o)], Some (o_success o)) else ret ([], Some false)) st = r).
    { intros ks t p l' w cw Fw Ct Et E Tw r <-. rewrite (bind_ok _ _ _ _ _ Et). unfold do_op. rewrite Ct, (bind_ok _ _ _ _ _ E).
      cbn [o_ref]. rewrite (bind_ok _ _ _ _ _ (exists_rref l' st)). reflexivity. }
    destruct (pointer_of dv (s2b "path")) as [ks|] eqn:PO.
    2:{ intros _. cbn. apply Bad. eapply NoPtr; eauto. intros t C. eexists. apply bind_throw, DoNone, C. }
    assert (Pp := Pt (s2b "path")). rewrite PO in Pp. destruct Pp as (t & Et & Ct).
    assert (H := op_get st l v c F ks T).
    destruct (vchild dv (PKey (s2b "value"))) as [x|] eqn:VX.
    2:{ intros _. cbn. apply Bad. destruct (member_none _ _ _ _ _ _ P O VX) as [e E]. destruct (route v ks) as [p|].
        - destruct H as (l' & w & cw & Fw & _ & Tw & _ & _ & Eg). exists e. eapply Gv; eauto. apply bind_throw, E.
        - destruct H as [e' H]. exists e'. rewrite (bind_ok _ _ _ _ _ Et). apply bind_throw. unfold do_op. rewrite Ct. exact H. }
    destruct (member_some _ _ _ _ _ _ _ P O ND VX) as (cx & Fx & E & Ox & Nx & Ix). destruct (Fi Fx Ix) as (A1 & A2 & A3).
    intros _. unfold outcome. cbn [refused step reversible]. destruct (route v ks) as [p|] eqn:R.
    2:{ destruct H as [e H]. apply Bad. exists e. rewrite (bind_ok _ _ _ _ _ Et). apply bind_throw. unfold do_op. rewrite Ct. exact H. }
    destruct H as (l' & w & cw & Fw & W & Tw & _ & Gp & Eg).
    destruct (op_put st l v c F p w x cx Fx T W Ox Nx A1 A2) as (l2 & cw2 & st' & v' & Gp2 & P2 & Es & Ev & (c' & F' & Tu) & U).
    assert (l2 = l') as -> by (specialize (Gp2 true); congruence). assert (cw2 = cw) as -> by (assert (H := tr_peek _ _ _ _ _ Tw); congruence).
    unfold rreplace. rewrite W, Ev. exists [UAdd p cw], st', c', F'. split.
    - apply Good. eapply Gv; eauto. rewrite (bind_ok _ _ _ _ _ E). unfold write_ref. cbn [resolve_create].
      rewrite (bind_ok _ _ _ tt st'); [reflexivity|]. unfold bind at 1. cbn [ret]. exact Es.
    - split; [eapply turns_weak; eauto|]. intros Rv. apply undo_all_one, U. auto. }
  destruct (beqb oper (s2b "move")) eqn:B4.
  { destruct (pointer_of dv (s2b "from")) as [ks|] eqn:PO.
    2:{ intros _. cbn. apply Bad. eapply NoPtr; eauto. intros t C. eexists. apply bind_throw, DoNone, C. }
    assert (Pp := Pt (s2b "from")). rewrite PO in Pp. destruct Pp as (t & Et & Ct). unfold outcome. cbn [refused step].
    assert (H := op_remove st l v c F ks T). destruct (route v ks) as [p|] eqn:R.
    2:{ intros _. destruct H as [e H]. apply Bad. exists e. rewrite (bind_ok _ _ _ _ _ Et). apply bind_throw. unfold do_op. rewrite Ct. exact H. }
    destruct (in_list v p) eqn:IL.
    { intros _. destruct H as [e H]. apply Bad. exists e. rewrite (bind_ok _ _ _ _ _ Et). apply bind_throw. unfold do_op. rewrite Ct. exact H. }
    destruct H as (w & v1 & cw & Fw & c1 & F1 & r & st1 & W & RR & E & Tu & Ow & Nw & Ap & Iw & U). rewrite W, RR.
    (* the patch is as it was *)
    assert (Bc : becomes st l F [] st1 v1) by (exists c1, F1; exact Tu).
    assert (P1 : peek st1 d = Some dc) by (eapply elsewhere; eauto).
    assert (O1 : owns (h_heap st1) dv dc Fd). { eapply becomes_keep; eauto. intros s J K. apply (AF s); auto. }
    assert (Mt1 := member_text_sem st1 d dv dc Fd (s2b "path") P1 O1 ND).
    assert (Pt1 : match pointer_of dv (s2b "path") with
      | Some ks => exists t, member_text d (s2b "path") st1 = (Ok t, st1) /\ components t = Some ks
      | None => (exists e, member_text d (s2b "path") st1 = (Throw e, st1)) \/ exists t, member_text d (s2b "path") st1 = (Ok t, st1) /\ components t = None end).
    { unfold pointer_of. destruct (ptext dv (s2b "path")) as [t1|]; [|auto]. destruct (components t1) eqn:C; eauto. }
    assert (T1 := proj1 Tu).
    assert (Lost : (exists e, (let* q := member_text d (s2b "path") in do_op q (RRef l) (PAdd cw)) st1 = (Throw e, st1)) ->
      exists us b st', (let* x := attempt (let* oper := member_text d (s2b "op") in patch_body (RRef l) d oper) in match x with inl y => ret y | inr _ => ret ([], None) end) st = (Ok (us, b), st') /\ b <> Some true /\ undo_all (RRef l) us st' = (Ok tt, st)).
    { intros [e Ee]. exists [UAdd p cw], None, st1. split; [|split; [discriminate|apply undo_all_one, U]].
      apply Good. rewrite (bind_ok _ _ _ _ _ Et). unfold do_op at 1. rewrite Ct, (bind_ok _ _ _ _ _ E). cbn [o_value o_path].
      rewrite (bind_ok _ _ _ _ _ (attempt_throw _ _ _ _ Ee)). reflexivity. }
    destruct (pointer_of dv (s2b "path")) as [to|].
    2:{ intros _. apply Lost. destruct Pt1 as [[e Ee]|(t1 & E1 & C1)]; [exists e; apply bind_throw, Ee|].
        exists RuntimeError. rewrite (bind_ok _ _ _ _ _ E1). unfold do_op. rewrite C1. reflexivity. }
    destruct Pt1 as (t1 & E1 & C1). cbn [admissible reversible]. intros Ad.
    assert (OLw : outside l Fw) by (eapply outside_incl; [apply (tr_out _ _ _ _ _ T)|exact Iw]).
    assert (H := add_step st1 l v1 c1 F1 t1 to w cw Fw T1 (Ad p v1 R IL RR) C1 Ow Nw Ap OLw).
    destruct (add_through v1 to w) as [v2|].
    - destruct H as (o & st2 & Eo & So & (c2 & F2 & Tu2) & Un). exists [add_undo o; UAdd p cw], st2, c2, F2. split.
      + apply Good. rewrite (bind_ok _ _ _ _ _ Et). unfold do_op at 1. rewrite Ct, (bind_ok _ _ _ _ _ E). cbn [o_value o_path].
        rewrite (bind_ok _ _ _ (inl o) st2). { rewrite So. reflexivity. }
        apply attempt_ok. rewrite (bind_ok _ _ _ _ _ E1). exact Eo.
      + split.
        * eapply turns_in; [eapply turns_weak; [exact Tu|exact FF|intros s []]| |exact Tu2]. intros s J. apply FF, Iw, J.
        * intros Rv. change [add_undo o; UAdd p cw] with ([add_undo o] ++ [UAdd p cw]). apply undo_all_app with (st1 := st1); apply undo_all_one; auto.
          apply Un. eapply Rv; eauto.
    - destruct H as [e H]. apply Lost. exists e. rewrite (bind_ok _ _ _ _ _ E1). exact H. }
  destruct (beqb oper (s2b "copy")) eqn:B5.
  { destruct (pointer_of dv (s2b "from")) as [ks|] eqn:PO.
    2:{ intros _. cbn. apply Bad. eapply NoPtr; eauto. intros t C. eexists. apply bind_throw, DoNone, C. }
    assert (Pp := Pt (s2b "from")). rewrite PO in Pp. destruct Pp as (t & Et & Ct). assert (H := op_get st l v c F ks T).
    assert (Pq := Pt (s2b "path")). destruct (pointer_of dv (s2b "path")) as [to|].
    2:{ intros _. cbn. apply Bad. rewrite (bind_ok _ _ _ _ _ Et). unfold do_op at 1. rewrite Ct. destruct (route v ks) as [p|].
        - destruct H as (l' & w & cw & Fw & _ & Tw & _ & _ & Eg). rewrite (bind_ok _ _ _ _ _ Eg). destruct Pq as [[e Ee]|(t1 & E1 & C1)].
          + exists e. apply bind_throw, Ee.
          + rewrite (bind_ok _ _ _ _ _ E1). exists RuntimeError. apply bind_throw. apply DoNone, C1.
        - destruct H as [e H]. exists e. apply bind_throw, H. }
    destruct Pq as (t1 & E1 & C1). cbn [admissible reversible]. intros (Ad & Sc). unfold outcome. cbn [refused step].
    destruct (route v ks) as [p|] eqn:R.
    2:{ destruct H as [e H]. apply Bad. exists e. rewrite (bind_ok _ _ _ _ _ Et). apply bind_throw. unfold do_op. rewrite Ct. exact H. }
    destruct H as (l' & w & cw & Fw & W & Tw & _ & Gp & Eg). rewrite W. specialize (Sc p w eq_refl W).
    assert (Ow := tr_owns _ _ _ _ _ Tw). assert (Fw = []) as ->.
    { destruct w; try tauto; destruct cw; cbn [owns] in Ow; try tauto; destruct Ow; auto. }
    assert (H := add_step st l v c F t1 to w cw [] T Ad C1 Ow (NoDup_nil _) (apart_nil _) (outside_nil _)).
    destruct (add_through v to w) as [v'|].
    - destruct H as (o & st' & Eo & So & (c' & F' & Tu) & Un). exists [add_undo o], st', c', F'. split.
      + apply Good. rewrite (bind_ok _ _ _ _ _ Et). unfold do_op at 1. rewrite Ct, (bind_ok _ _ _ _ _ Eg), (bind_ok _ _ _ _ _ E1). cbn [o_value].
        rewrite (bind_ok _ _ _ _ _ Eo), So. reflexivity.
      + split; [eapply turns_weak; eauto; intros s []|]. intros Rv. apply undo_all_one; auto.
    - destruct H as [e H]. apply Bad. exists e. rewrite (bind_ok _ _ _ _ _ Et). unfold do_op at 1. rewrite Ct, (bind_ok _ _ _ _ _ Eg), (bind_ok _ _ _ _ _ E1).
      apply bind_throw, H. }
  destruct (beqb oper (s2b "test")) eqn:B6.
  { destruct (pointer_of dv (s2b "path")) as [ks|] eqn:PO.
    2:{ intros _. cbn. apply Bad. eapply NoPtr; eauto. intros t C.
        destruct (vchild dv (PKey (s2b "value"))) as [x|] eqn:VX.
        - destruct (member_some _ _ _ _ _ _ _ P O ND VX) as (cx & Fx & E & _). rewrite (bind_ok _ _ _ _ _ E). eexists. apply bind_throw, DoNone, C.
        - destruct (member_none _ _ _ _ _ _ P O VX) as [e E]. exists e. apply bind_throw, E. }
    assert (Pp := Pt (s2b "path")). rewrite PO in Pp. destruct Pp as (t & Et & Ct).
    destruct (vchild dv (PKey (s2b "value"))) as [x|] eqn:VX.
    2:{ intros _. cbn. apply Bad. rewrite (bind_ok _ _ _ _ _ Et). destruct (member_none _ _ _ _ _ _ P O VX) as [e E]. exists e. apply bind_throw, E. }
    destruct (member_some _ _ _ _ _ _ _ P O ND VX) as (cx & Fx & E & Ox & Nx & Ix).
    cbn [admissible reversible]. intros NB. unfold outcome. cbn [refused step]. assert (H := op_test st l v c F ks x cx Fx T Ox NB).
    destruct (route v ks) as [p|] eqn:R.
    2:{ destruct H as [e H]. apply Bad. exists e. rewrite (bind_ok _ _ _ _ _ Et), (bind_ok _ _ _ _ _ E). apply bind_throw. unfold do_op. rewrite Ct. exact H. }
    destruct H as (w & r & W & Eg). rewrite W.
    assert (NBw : noblob w).
    { clear -NB W. revert v NB W. induction p as [|e p IH]; intros v NB W; cbn [vat] in W; [congruence|]. destruct (vchild v e) as [y|] eqn:V; [|discriminate].
      apply (IH y); auto. destruct v, e; try discriminate; cbn [vchild] in V.
      - apply nth_error_In in V. apply noblob_VList in NB. eapply noblobs_In; eauto.
      - apply noblob_VMap in NB. apply mget_In in V. eapply noblobs_In; eauto. apply (in_map snd) in V. exact V. }
    destruct (vcompare_ok w NBw x) as (z & Z). rewrite Z in Eg |- *. cbn [rbind] in Eg.
    assert (Ru : forall b : bool, (z =? 0)%Z = b -> (let* x := attempt (let* oper := member_text d (s2b "op") in patch_body (RRef l) d oper) in match x with inl y => ret y | inr _ => ret ([], None) end) st = (Ok ([], Some b), st)).
    { intros b <-. apply Good. rewrite (bind_ok _ _ _ _ _ Et), (bind_ok _ _ _ _ _ E). unfold do_op. rewrite Ct, (bind_ok _ _ _ _ _ Eg). reflexivity. }
    destruct (z =? 0)%Z eqn:Zz.
    - exists [], st, c, F. split; [apply Ru; reflexivity|]. split; [|reflexivity]. eapply turns_weak; [apply turns_refl, T|exact FF|intros s []].
    - exists [], (Some false), st. split; [apply Ru; reflexivity|]. split; [discriminate|reflexivity]. }
  intros _. cbn. apply Bad. exists RuntimeError. reflexivity.
Qed.

(** ** All steps of a patch *)
Lemma turns_hold st l D st' v' c' F' : (forall s, In s D -> exists x, nth_error (h_heap st) s = Some x /\ container x) -> turns st l D [] st' v' c' F' ->
  (forall s x, nth_error (h_heap st) s = Some x -> ~ container x -> nth_error (h_heap st') s = Some x) /\
  (forall H, apart D H -> outside l H -> forall s x, In s H -> nth_error (h_heap st) s = Some x -> nth_error (h_heap st') s = Some x).
Proof.
  intros DC (T & I & V & N & L). split.
  - intros s x E C. rewrite N.
    + rewrite E. apply patch_keep, C.
    + unfold hlen. apply nth_error_Some. congruence.
    + intros J. destruct (DC _ J) as (x' & E' & C'). congruence.
  - intros H A X s x J E. rewrite N.
    + rewrite E. eapply patch_out; eauto.
    + unfold hlen. apply nth_error_Some. congruence.
    + intros K. apply (A s K J).
Qed.

Lemma patch_loop_sem l sp all : forall dvs dcs Fs pre st v c F us,
  tree st l v c F -> nth_error (h_heap st) sp = Some (StList all) -> all = pre ++ dcs -> owns_list (h_heap st) dvs dcs Fs ->
  NoDup (sp :: List.concat Fs) -> apart F (sp :: List.concat Fs) -> outside l (sp :: List.concat Fs) -> along admissible v (List.map decode dvs) ->
  match run v (List.map decode dvs) with
  | Some v' => exists us' st' c' F', patch_loop (RRef l) sp (N.of_nat (List.length pre)) (List.length dcs) us st = (Ok (us', Some true), st') /\
      turns st l (F ++ List.concat Fs) [] st' v' c' F'
  | None => forall st0, undo_all (RRef l) us st = (Ok tt, st0) -> along reversible v (List.map decode dvs) ->
      exists us' b st', patch_loop (RRef l) sp (N.of_nat (List.length pre)) (List.length dcs) us st = (Ok (us', b), st') /\ b <> Some true /\
        undo_all (RRef l) us' st' = (Ok tt, st0)
  end.
Proof.
  induction dvs as [|dv dvs IH]; intros [|dc dcs] [|Fd Fs] pre st v c F us T X EA O ND A OL AD; cbn [owns_list] in O; try (exfalso; exact O).
  - cbn. exists us, st, c, F. split; [reflexivity|]. eapply turns_weak; [apply turns_refl, T| |intros s []]. intros; apply in_or_app; auto.
  - destruct O as [Od Os]. cbn [List.map run along List.concat List.length] in *. destruct AD as [A1 A2].
    assert (NDd : NoDup Fd). { destruct (proj1 (NoDup_cons_iff _ _) ND) as [_ ND']. apply nodup_app in ND'. tauto. }
    assert (Pd : peek st (LIdx sp (N.of_nat (List.length pre))) = Some dc).
    { cbn [peek]. rewrite X. unfold nthN. rewrite Nat2N.id, EA, nth_error_app2, Nat.sub_diag by auto. reflexivity. }
    assert (AFd : apart F Fd). { intros s J K. apply (A s J). right. apply in_or_app; auto. }
    assert (OFd : outside l Fd). { eapply outside_incl; eauto. intros s J. right. apply in_or_app; auto. }
    assert (NL : LIdx sp (N.of_nat (List.length pre)) <> l). { intros <-. cbn in OL. apply OL. auto. }
    assert (OdF : outside (LIdx sp (N.of_nat (List.length pre))) F). { intros J. apply (A sp J). left; auto. }
    assert (H := patch_op_sem st l v c F _ dv dc Fd T Pd Od NDd AFd OFd OdF NL A1).
    assert (DC : forall s, In s (F ++ Fd) -> exists x, nth_error (h_heap st) s = Some x /\ container x).
    { intros s J. apply in_app_or in J. destruct J as [J|J]; [apply (owns_In _ _ _ _ _ (tr_owns _ _ _ _ _ T) J)|apply (owns_In _ _ _ _ _ Od J)]. }
    cbn [patch_loop].
    destruct (outcome v (decode dv)) as [v1|].
    + destruct H as (us1 & st1 & c1 & F1 & E & Tu & Un). rewrite (bind_ok _ _ _ _ _ E).
      destruct (turns_hold _ _ _ _ _ _ _ DC Tu) as (H1 & H2).
      assert (R1 : apart (F ++ Fd) (sp :: List.concat Fs)).
      { intros s J K. apply in_app_or in J. destruct J as [J|J].
        - apply (A s J). destruct K as [->|K]; [left; auto|right; apply in_or_app; auto].
        - destruct (proj1 (NoDup_cons_iff _ _) ND) as [Nsp ND']. destruct K as [->|K]; [apply Nsp; apply in_or_app; auto|].
          apply nodup_app in ND'. destruct ND' as (_ & _ & ND'). apply (ND' s J K). }
      assert (O1 : outside l (sp :: List.concat Fs)). { eapply outside_incl; [exact OL|]. intros s [->|J]; [left; auto|right; apply in_or_app; auto]. }
      assert (X1 : nth_error (h_heap st1) sp = Some (StList all)) by (eapply H2; eauto; left; auto).
      assert (Lt : forall s, In s (sp :: List.concat Fs) -> (s < hlen st)%nat).
      { intros s [<-|J]; unfold hlen; [apply nth_error_Some; congruence|]. destruct (owns_list_In _ _ _ _ _ Os J) as (y & cy & f & _ & Oy & Jy). eapply owns_lt; eauto. }
      assert (Os1 : owns_list (h_heap st1) dvs dcs Fs).
      { apply owns_list_frame' with (h := h_heap st); auto. intros s J. assert (L := Lt s (or_intror J)). unfold hlen in L. apply nth_error_Some in L.
        destruct (nth_error (h_heap st) s) eqn:Es; [|congruence]. eapply H2; eauto. right; auto. }
      assert (EA1 : all = (pre ++ [dc]) ++ dcs) by (rewrite <- app_assoc; exact EA).
      assert (ND1 : NoDup (sp :: List.concat Fs)).
      { destruct (proj1 (NoDup_cons_iff _ _) ND) as [Nsp ND']. constructor; [intros J; apply Nsp, in_or_app; auto|]. apply nodup_app in ND'. tauto. }
      assert (AF1 : apart F1 (sp :: List.concat Fs)).
      { intros s J K. destruct Tu as (_ & I & _). destruct (I s J) as [J'|[[]|J']]; [apply (R1 s J' K)|]. apply Lt in K. lia. }
      assert (Ei : N.of_nat (List.length pre) + 1 = N.of_nat (List.length (pre ++ [dc]))) by (rewrite app_length; cbn; lia).
      assert (H := IH dcs Fs (pre ++ [dc]) st1 v1 c1 F1 (us1 ++ us) (proj1 Tu) X1 EA1 Os1 ND1 AF1 O1 A2). rewrite Ei.
      destruct (run v1 (List.map decode dvs)) as [v'|].
      * destruct H as (us' & st' & c' & F' & E' & Tu'). exists us', st', c', F'. split; [exact E'|]. destruct Tu as (T1 & I1 & V1 & N1 & L1), Tu' as (T2 & I2 & V2 & N2 & L2).
        split; [exact T2|]. repeat split; try lia.
        -- intros s J. destruct (I2 _ J) as [J'|[[]|J']]; [|right; right; lia]. apply in_app_or in J'. destruct J' as [J'|J'].
           ++ destruct (I1 _ J') as [J2|[[]|J2]]; auto. left. apply in_app_or in J2. rewrite !in_app_iff. tauto.
           ++ left. rewrite !in_app_iff. auto.
        -- rewrite V2, V1. apply patchv_patchv.
        -- intros s Hs NF. rewrite !in_app_iff in NF. rewrite N2; [|lia|].
           ++ rewrite N1; auto; [apply patch_patch|]. rewrite in_app_iff. tauto.
           ++ rewrite in_app_iff. intros [J|J]; [|tauto]. destruct (I1 _ J) as [J2|[[]|J2]]; [|lia]. apply in_app_or in J2. tauto.
      * intros st0 U [Rv1 Rv2]. apply H; auto. eapply undo_all_app; eauto.
    + destruct H as (us1 & b & st1 & E & Nb & U1). intros st0 U _. exists (us1 ++ us), b, st1. split.
      * rewrite (bind_ok _ _ _ _ _ E). destruct b as [[]|]; [congruence|reflexivity|reflexivity].
      * split; [exact Nb|]. eapply undo_all_app; eauto.
Qed.

(** The whole patch at [d], the document at [l]: two trees that share nothing. *)
Lemma json_patch_sem st l v c F d dv dc Fd : tree st l v c F -> tree st d dv dc Fd -> apart F Fd -> outside l Fd -> outside d F -> d <> l ->
  along admissible v (steps_of dv) ->
  match run v (steps_of dv) with
  | Some v' => exists st' c' F', json_patch (RRef l) d st = (Ok true, st') /\ turns st l (F ++ Fd) [] st' v' c' F'
  | None => along reversible v (steps_of dv) -> json_patch (RRef l) d st = (Ok false, st)
  end.
Proof.
  intros T [P O ND OD LS] A OF OdF NL AD. unfold json_patch. rewrite (bind_load _ _ _ _ P).
  assert (One : (forall s, dc <> CList s) -> steps_of dv = [decode dv] ->
    match run v (steps_of dv) with
    | Some v' => exists st' c' F', (let* x := patch_op (RRef l) d in match snd x with Some true => ret true | _ => undo_all (RRef l) (fst x);; ret false end) st = (Ok true, st') /\ turns st l (F ++ Fd) [] st' v' c' F'
    | None => along reversible v (steps_of dv) -> (let* x := patch_op (RRef l) d in match snd x with Some true => ret true | _ => undo_all (RRef l) (fst x);; ret false end) st = (Ok false, st)
    end).
  { intros _ ES. rewrite ES in *. cbn [run along] in *. destruct AD as [A1 _]. assert (H := patch_op_sem st l v c F d dv dc Fd T P O ND A OF OdF NL A1).
    destruct (outcome v (decode dv)) as [v1|].
    - destruct H as (us & st' & c' & F' & E & Tu & _). exists st', c', F'. rewrite (bind_ok _ _ _ _ _ E). auto.
    - destruct H as (us & b & st' & E & Nb & U). intros _. rewrite (bind_ok _ _ _ _ _ E). cbn [snd fst].
      destruct b as [[]|]; [congruence| |]; rewrite (bind_ok _ _ _ _ _ U); reflexivity. }
  destruct dc; try (apply One; [discriminate|destruct dv; try reflexivity; exfalso; exact O]).
  clear One. destruct dv as [| | | | | |dvs| |]; try (exfalso; exact O). apply owns_VList in O. destruct O as (cs & Fs & X & -> & Os).
  cbn [steps_of] in *. assert (H := patch_loop_sem l s cs dvs cs Fs [] st v c F [] T X eq_refl Os ND A OF AD). cbn [List.length N.of_nat] in H.
  assert (G : forall r st1, patch_loop (RRef l) s 0 (List.length cs) [] st = (Ok r, st1) -> (let* cs := get_list s in patch_loop (RRef l) s 0 (List.length cs) []) st = (Ok r, st1)).
  { intros r st1 E. rewrite (bind_get_list _ _ _ _ X). exact E. }
  destruct (run v (List.map decode dvs)) as [v'|].
  - destruct H as (us & st' & c' & F' & E & Tu). exists st', c', F'. apply G in E. rewrite (bind_ok _ _ _ _ _ E). split; [reflexivity|].
    eapply turns_weak; [exact Tu| |intros t []]. intros t J. rewrite in_app_iff in *. cbn. tauto.
  - intros Rv. destruct (H st eq_refl Rv) as (us & b & st' & E & Nb & U). apply G in E. rewrite (bind_ok _ _ _ _ _ E). cbn [snd fst].
    destruct b as [[]|]; [congruence| |]; rewrite (bind_ok _ _ _ _ _ U); reflexivity.
Qed.
