(** C12: copies are isolated, assignments alias.  C13: reading never modifies. *)
From Verif Require Import Base Float Value Blob Path Numeric Heap HeapProofs HeapSpec SharingProofs.
Open Scope N_scope.

(** ** C12 *)

(** After [z = src.Copy()] -- [src] any object reached from any variable by a path -- let any
    operations follow, in any order, each of which mentions only [z] or only other
    variables, including operations that throw.  Then an operation on [z] changes nothing
    that can be seen through any other variable, and an operation on the others changes
    nothing that can be seen through [z]. *)
Theorem C12_copy_isolated st z fuel src st1 os b st2 o r st3 :
  wf st -> exec (OAssign (LV z []) (RvCopy fuel src)) st = (Ok tt, st1) ->
  Forall (fun o => op_in (only z) o \/ op_in (but z) o) os -> execs os st1 = (b, st2) ->
  exec o st2 = (r, st3) ->
  (op_in (only z) o -> forall x p, x <> z -> see st3 x p = see st2 x p) /\
  (op_in (but z) o -> forall p, see st3 z p = see st2 z p).
Proof.
  intros W E F Es Eo. pose proof (copy_sep _ _ _ _ _ W E) as S.
  assert (S2 : sep (only z) st2) by (eapply sep_execs; [exact S|exact F|exact Es]).
  split.
  - intros O x p N. destruct (sep_exec _ _ _ _ _ S2 (or_introl O) Eo) as (_ & A & _). apply A; auto.
  - intros O p. destruct (sep_exec _ _ _ _ _ S2 (or_intror O) Eo) as (_ & _ & A). apply A; auto.
    + intros x. unfold only. destruct (Nat.eq_dec x z); tauto.
    + reflexivity.
Qed.
Print Assumptions C12_copy_isolated.

(** The copy looks like the original at every path, except that the buffers of a blob are
    put together in one; the rest of the program sees no change. *)
Theorem C12_copy_same st z fuel src st1 :
  wf st -> exec (OAssign (LV z []) (RvCopy fuel src)) st = (Ok tt, st1) ->
  exists c, read_lval src st = (Ok c, st) /\
    (forall p, see st1 z p = option_map norm (shows st c p)) /\
    (forall x p, x <> z -> see st1 x p = see st x p).
Proof.
  intros W E. destruct (exec_assign_copy _ _ _ _ _ E) as (c & c' & st2 & R & K & N & ->).
  exists c. split; [exact R|].
  pose proof (read_lval_inside _ _ _ _ _ W Logic.I R) as I.
  assert (C0 : closed (fun s => (s < hlen st)%nat) none st). { apply (closed_ext _ _ _ _ (fun x (H : none x) => Logic.I) W). }
  destruct (copy_grown _ _ _ _ _ _ C0 I K) as [G J].
  destruct (copy_shows _ _ _ _ _ _ C0 I K) as [A B]. split.
  - intros p. unfold see. cbn. rewrite nth_lput, Nat.eqb_refl. destruct (nth_error (h_vars st2) z); [|contradiction].
    rewrite <- (A p). unfold shows. clear. assert (H : forall q c, cell_at (HState (lput (h_vars st2) z c') (h_heap st2)) c q = cell_at st2 c q).
    { induction q as [|e q IH]; intros d; cbn; auto. destruct d, e; cbn; auto; destruct (nth_error (h_heap st2) s) as [[]|]; auto;
        match goal with |- context [match ?x with Some _ => _ | None => _ end] => destruct x end; auto. }
    rewrite H. destruct (cell_at st2 c' p) as [d|]; reflexivity.
  - intros x p Nx. apply (see_agree (fun s => (s < hlen st)%nat) (fun _ => True) st); auto.
    + intros s Hs. cbn. apply grown_nth_old; auto.
    + cbn. rewrite nth_lput. destruct (Nat.eqb_spec x z); [contradiction|]. rewrite (gr_vars _ _ G). reflexivity.
Qed.
Print Assumptions C12_copy_same.

(** Copying a tree whose blobs all have a buffer and less than 4 GiB succeeds. *)
Theorem C12_copy_succeeds st z c0 src c v fuel :
  wf st -> nth_error (h_vars st) z = Some c0 -> read_lval src st = (Ok c, st) ->
  reads (h_heap st) v c -> copyable v -> (vdepth v <= fuel)%nat ->
  exists st1, exec (OAssign (LV z []) (RvCopy fuel src)) st = (Ok tt, st1).
Proof.
  intros W Z R Rd K D.
  assert (C0 : closed (fun s => (s < hlen st)%nat) none st). { apply (closed_ext _ _ _ _ (fun x (H : none x) => Logic.I) W). }
  pose proof (read_lval_inside _ _ _ _ _ W Logic.I R) as I.
  destruct (copy_total v fuel _ c st C0 I Rd K D) as (c' & st' & E).
  destruct (copy_grown _ _ _ _ _ _ C0 I E) as [G _].
  cbn [exec eval_rval]. rewrite (bind_ok _ _ _ c' st') by (rewrite (bind_ok _ _ _ _ _ R); exact E).
  unfold target_create, eval_lval. cbn. unfold bind, assign, store. cbn. rewrite (gr_vars _ _ G), Z. eauto.
Qed.
Print Assumptions C12_copy_succeeds.

(** A structure that contains itself cannot be copied: Copy recurses without end. *)
Theorem C12_copy_cyclic_refuted :
  exists st c, wf st /\ nth_error (h_vars st) 0 = Some c /\ forall fuel, fst (copy fuel c st) = Fuel.
Proof.
  exists (HState [CList 0] [StList [CList 0]]), (CList 0). split; [apply wfb_sound; vm_compute; reflexivity|]. split; [reflexivity|].
  assert (H : forall fuel, copy fuel (CList 0) (HState [CList 0] [StList [CList 0]]) = (Fuel, HState [CList 0] [StList [CList 0]])).
  { induction fuel as [|f IH]; [reflexivity|]. cbn [copy]. rewrite (bind_get_list _ (HState [CList 0] [StList [CList 0]]) 0 [CList 0] eq_refl). cbn [map_m]. unfold bind.
    rewrite IH. reflexivity. }
  intros fuel. rewrite H. reflexivity.
Qed.
Print Assumptions C12_copy_cyclic_refuted.

(** After [z = y] where [y] holds a string, list or map, every later modification is seen
    alike through both, as long as neither variable itself is assigned something else. *)
Theorem C12_assign_aliases st y z c st1 os b st2 :
  wf st -> nth_error (h_vars st) y = Some c -> holder c = true ->
  exec (OAssign (LV z []) (RvOf (LV y []))) st = (Ok tt, st1) ->
  Forall (fun o => ~ replaces y o /\ ~ replaces z o) os -> execs os st1 = (b, st2) ->
  forall p, see st2 z p = see st2 y p.
Proof.
  intros W Y H E F Es.
  assert (R : read_lval (LV y []) st = (Ok c, st)).
  { unfold read_lval, eval_lval, bind, load. cbn. rewrite Y. reflexivity. }
  cbn [exec eval_rval] in E. rewrite (bind_ok _ _ _ _ _ R) in E.
  unfold target_create, eval_lval, bind, assign, store in E. cbn in E. destruct (nth_error (h_vars st) z) eqn:Z; [|discriminate].
  injection E as <-.
  assert (Y1 : nth_error (lput (h_vars st) z c) y = Some c).
  { rewrite nth_lput. destruct (Nat.eqb y z); [rewrite Z|]; auto. }
  assert (Z1 : nth_error (lput (h_vars st) z c) z = Some c) by (rewrite nth_lput, Nat.eqb_refl, Z; reflexivity).
  pose proof (keep_execs y c H os ltac:(eapply Forall_impl; [|exact F]; cbn; tauto) (HState (lput (h_vars st) z c) (h_heap st)) _ _ Y1 Es) as Y2.
  pose proof (keep_execs z c H os ltac:(eapply Forall_impl; [|exact F]; cbn; tauto) (HState (lput (h_vars st) z c) (h_heap st)) _ _ Z1 Es) as Z2.
  intros p. unfold see. rewrite Y2, Z2. reflexivity.
Qed.
Print Assumptions C12_assign_aliases.

(** Likewise for an element: whenever path [q] of [y] leads to the storage that [z] holds,
    everything below it is seen alike. *)
Theorem C12_element_aliases st y z q cy c :
  nth_error (h_vars st) y = Some cy -> nth_error (h_vars st) z = Some c -> cell_at st cy q = Some c ->
  forall p, see st y (q ++ p) = see st z p.
Proof.
  intros Y Z Q p. unfold see. rewrite Y, Z.
  assert (H : forall q cy, cell_at st cy q = Some c -> cell_at st cy (q ++ p) = cell_at st c p).
  { induction q0 as [|e q0 IH]; intros d E; cbn in *; [congruence|]. destruct (child st d e); [auto|discriminate]. }
  rewrite (H _ _ Q). reflexivity.
Qed.
Print Assumptions C12_element_aliases.

(** *** A case: v = {"a": [1, 2], "b": "text", "n": [[3]]}, w = v, x = v.Copy(), y = v["a"] *)
Definition ka := s2b "a". Definition kb := s2b "b". Definition kn := s2b "n".
Definition demo_ops : list op :=
  [OSetPath (LV 0 []) [PKey ka; PIdx 0] (RvInt 1); OSetPath (LV 0 []) [PKey ka; PIdx 1] (RvUns 2);
   OAssign (LV 0 [PKey kb]) (RvStr (s2b "text")); OSetPath (LV 0 []) [PKey kn; PIdx 0; PIdx 0] (RvInt 3);
   OAssign (LV 1 []) (RvOf (LV 0 []))].
Definition demo_st : hstate := snd (execs demo_ops (HState [CNull; CNull; CNull; CNull] [])).
Definition demo_st1 : hstate := snd (exec (OAssign (LV 2 []) (RvCopy 10 (LV 0 []))) demo_st).
Definition later : list op :=
  [OSetElem (LV 2 [PKey ka]) (PIdx 5) (RvBool true); OErase (LV 0 []) (PKey kb); OAppend (LV 1 [PKey ka]) (RvInt 9);
   OIncr (LV 0 [PKey kb]); OMerge (LV 2 []) (RvOf (LV 2 [PKey kn])); OClear (LV 2 [PKey kn])].
Definition demo_st2 : hstate := snd (execs later demo_st1).
Definition last_op : op := OAssign (LV 0 [PKey ka; PIdx 0]) (RvStr (s2b "new")).

Example demo_wf : wf demo_st. Proof. apply wfb_sound. vm_compute. reflexivity. Qed.
Example demo_copy : exec (OAssign (LV 2 []) (RvCopy 10 (LV 0 []))) demo_st = (Ok tt, demo_st1).
Proof. vm_compute. reflexivity. Qed.
Example demo_sides : Forall (fun o => op_in (only 2) o \/ op_in (but 2) o) later.
Proof.
  repeat apply Forall_cons; try apply Forall_nil; cbn; unfold only, but;
    (left; solve [repeat split]) || (right; repeat split; discriminate).
Qed.
Example demo_later : execs later demo_st1 = (true, demo_st2).
Proof. vm_compute. reflexivity. Qed.
Example demo_isolated : forall p, see (snd (exec last_op demo_st2)) 2 p = see demo_st2 2 p.
Proof.
  intros p. eapply (C12_copy_isolated _ _ _ _ _ _ _ _ last_op); [apply demo_wf|apply demo_copy|apply demo_sides|apply demo_later| |cbn; unfold but; auto].
  apply surjective_pairing.
Qed.
(** The last operation does change what is seen through variables 0 and 1. *)
Example demo_changed : see (snd (exec last_op demo_st2)) 1 [PKey ka; PIdx 0] = Some (ShStr (s2b "new")) /\
  see demo_st2 1 [PKey ka; PIdx 0] = Some (ShInt 1) /\ see demo_st2 2 [PKey ka; PIdx 0] = Some (ShInt 1).
Proof. vm_compute. auto. Qed.
Example demo_alias : forall p, see demo_st2 1 p = see demo_st2 0 p.
Proof.
  eapply (C12_assign_aliases (snd (execs (firstn 4 demo_ops) (HState [CNull; CNull; CNull; CNull] []))) 0 1
            (CMap 0) demo_st (OAssign (LV 2 []) (RvCopy 10 (LV 0 [])) :: later) true).
  - apply wfb_sound. vm_compute. reflexivity.
  - vm_compute. reflexivity.
  - reflexivity.
  - vm_compute. reflexivity.
  - repeat apply Forall_cons; try apply Forall_nil; cbn; intuition discriminate.
  - vm_compute. reflexivity.
Qed.
Example demo_reads : exists c v, read_lval (LV 0 []) demo_st = (Ok c, demo_st) /\ reads (h_heap demo_st) v c /\
  copyable v /\ (vdepth v <= 10)%nat.
Proof.
  exists (CMap 0), (VMap [(ka, VList [VInt 1; VUns 2]); (kb, VStr (s2b "text")); (kn, VList [VList [VInt 3]])]).
  split; [vm_compute; reflexivity|]. split; [|split; [cbn; tauto|cbn; lia]].
  vm_compute. repeat first [exact I | reflexivity | (eexists; split; [reflexivity|]) | split].
Qed.

(** ** C13 *)

(** A lookup: from a variable follow operator[] and AtPath any number of times, then ask. *)
Inductive follow := FAt (e : pelem) | FAtPath (p : path).
Inductive ask :=
| AExists | AContains (e : pelem) | AGet (e : pelem) | AGetDef (e : pelem) (d : cell)
| AHasPath (p : path) | AGetPath (p : path) | AGetPathDef (p : path) (d : cell) | ASize | AEmpty | ARead.
Fixpoint chase (r : vref) (fs : list follow) : M vref :=
  match fs with
  | [] => ret r
  | FAt e :: t => let* r' := at_elem r e in chase r' t
  | FAtPath p :: t => let* r' := at_path r p in chase r' t
  end.
Definition nothing {A} (m : M A) : M unit := let* _ := m in ret tt.
Definition run_ask (r : vref) (a : ask) : M unit :=
  match a with
  | AExists => nothing (exists_ref r)
  | AContains e => nothing (contains r e)
  | AGet e => nothing (get r e)
  | AGetDef e d => nothing (get_def r e d)
  | AHasPath p => nothing (let* l := resolve_throw r in has_path l p)
  | AGetPath p => nothing (let* l := resolve_throw r in get_at_path l p)
  | AGetPathDef p d => nothing (let* l := resolve_throw r in get_at_path_def l p d)
  | ASize => nothing (let* l := resolve_throw r in size_of l)
  | AEmpty => nothing (let* l := resolve_throw r in is_empty l)
  | ARead => nothing (let* l := resolve_throw r in load l)
  end.
Definition lookup (x : nat) (fs : list follow) (a : ask) : M unit :=
  let* r := chase (RRef (LVar x)) fs in run_ask r a.
Fixpoint lookups (qs : list (nat * list follow * ask)) (st : hstate) : hstate :=
  match qs with [] => st | (x, fs, a) :: t => lookups t (snd (lookup x fs a st)) end.

(** No sequence of lookups, successful or throwing, changes anything. *)
Theorem C13_lookups_change_nothing qs : forall st, lookups qs st = st.
Proof.
  assert (C : forall fs r, pure_m (chase r fs)).
  { induction fs as [|[e|p] fs IH]; intros r; cbn [chase]; [apply pure_ret| |].
    - apply pure_bind; [apply pure_at_elem|auto].
    - apply pure_bind; [apply pure_at_path|auto]. }
  assert (A : forall r a, pure_m (run_ask r a)).
  { intros r a. destruct a; cbn [run_ask]; unfold nothing; (apply pure_bind; [|intros; apply pure_ret]);
      [apply pure_exists_ref|apply pure_contains|apply pure_get|apply pure_get_def|..];
      (apply pure_bind; [apply pure_resolve_throw|intros l]).
    - apply pure_has_path. - apply pure_get_at_path. - apply pure_get_at_path_def.
    - apply pure_size_of. - apply pure_is_empty. - apply pure_load. }
  induction qs as [|[[x fs] a] qs IH]; intros st; cbn [lookups]; [reflexivity|]. rewrite IH.
  unfold lookup. apply pure_bind; auto.
Qed.
Print Assumptions C13_lookups_change_nothing.

(** HasPath answers exactly whether something is there; GetPath returns exactly what is
    there, or the default, or throws. *)
Theorem C13_paths_exact st x c p : wf st -> nth_error (h_vars st) x = Some c ->
  (has_path (LVar x) p st = (Ok true, st) <-> see st x p <> None) /\
  (has_path (LVar x) p st = (Ok false, st) <-> see st x p = None) /\
  match cell_at st c p with
  | Some d => get_at_path (LVar x) p st = (Ok d, st) /\ forall def, get_at_path_def (LVar x) p def st = (Ok d, st)
  | None => (exists ex, get_at_path (LVar x) p st = (Throw ex, st)) /\ forall def, get_at_path_def (LVar x) p def st = (Ok def, st)
  end.
Proof.
  intros W X. pose proof (get_path_spec p st (LVar x) c) as G. unfold see. rewrite X.
  pose proof (G false W X) as G0. pose proof (G true W X) as G1. clear G. unfold missing in *.
  unfold has_path, get_at_path, get_at_path_def. destruct (cell_at st c p) as [d|].
  - destruct G0 as (l0 & G0 & P0), G1 as (l1 & G1 & P1). rewrite !(bind_ok _ _ _ _ _ G0), (bind_ok _ _ _ _ _ G1).
    unfold ret, load. rewrite P1. repeat split; try congruence. intros def. rewrite (bind_ok _ _ _ _ _ G0). unfold load. rewrite P0. reflexivity.
  - destruct G1 as (ex & G1 & _). rewrite !(bind_ok _ _ _ _ _ G0), (bind_throw _ _ _ _ _ G1). unfold ret.
    repeat split; try congruence; eauto. intros def. rewrite (bind_ok _ _ _ _ _ G0). reflexivity.
Qed.
Print Assumptions C13_paths_exact.

(** operator[] applied any number of times, also through what is missing, gives a reference
    that exists exactly when the path does; it creates nothing. *)
Theorem C13_chain_exact es : forall st x c r, wf st -> nth_error (h_vars st) x = Some c ->
  chase (RRef (LVar x)) (List.map FAt es) st = (Ok r, st) ->
  exists_ref r st = (Ok (match see st x es with Some _ => true | None => false end), st).
Proof.
  intros st x c r W X.
  assert (H : forall es r0 rest, 
     (exists l d, r0 = RRef l /\ peek st l = Some d /\ rest = cell_at st d es) \/
     (exists l q d, r0 = RProxy l q /\ q <> [] /\ peek st l = Some d /\ cell_at st d q = None /\ rest = None) ->
     chase r0 (List.map FAt es) st = (Ok r, st) ->
     exists_ref r st = (Ok (match rest with Some _ => true | None => false end), st)).
  { clear es. induction es as [|e es IH]; intros r0 rest H E; cbn [List.map chase] in E.
    - injection E as <-. destruct H as [(l & d & -> & P & ->)|(l & q & d & -> & NQ & P & Q & ->)].
      + reflexivity.
      + unfold exists_ref. cbn [resolve_check]. pose proof (get_path_spec q st l d false W P) as G. rewrite Q in G. unfold missing in G.
        rewrite (bind_ok _ _ _ _ _ G). reflexivity.
    - pose proof (pure_at_elem r0 e st) as PA. unfold bind in E. destruct (at_elem r0 e st) as [[r1| | | |] st1] eqn:A; try discriminate.
      cbn in PA. subst st1. apply (IH r1); auto. clear IH E.
      unfold at_elem in A. destruct H as [(l & d & -> & P & ->)|(l & q & d & -> & NQ & P & Q & ->)].
      + cbn [resolve_check] in A. rewrite (bind_ok (ret (Some l)) _ st (Some l) st eq_refl) in A.
        pose proof (wf_peek _ _ _ W P) as I.
        destruct e as [k|i]; cbn [get_ref_elem] in A; [unfold get_ref_key in A|unfold get_ref_index in A];
          rewrite (bind_load _ _ _ _ P) in A; destruct d; try discriminate.
        * injection A as <-. right. exists l, [PKey k], CNull. repeat split; auto. discriminate.
        * destruct I as [_ (y & Ey & Ky)]. destruct y; try discriminate. unfold map_get_ref in A. rewrite (bind_get_map _ _ _ _ Ey) in A.
          cbn [cell_at child]. rewrite Ey. destruct (mget k m) as [d|] eqn:G.
          { injection A as <-. left. exists (LKey s k), d. repeat split; auto. cbn. rewrite Ey. exact G. }
          { injection A as <-. right. exists l, [PKey k], (CMap s). repeat split; auto. discriminate. cbn. rewrite Ey, G. reflexivity. }
        * injection A as <-. right. exists l, [PIdx i], CNull. repeat split; auto. discriminate.
        * destruct I as [_ (y & Ey & Ky)]. destruct y; try discriminate. unfold list_get_ref in A. rewrite (bind_get_list _ _ _ _ Ey) in A.
          cbn [cell_at child]. rewrite Ey. unfold lsize in A. destruct (nth_error l0 (N.to_nat i)) as [d|] eqn:G.
          { assert (N.to_nat i < List.length l0)%nat by (apply nth_error_Some; congruence).
            destruct (N.ltb_spec i (N.of_nat (List.length l0))); [|lia].
            injection A as <-. left. exists (LIdx s i), d. repeat split; auto. cbn. rewrite Ey. exact G. }
          { apply nth_error_None in G. destruct (N.ltb_spec i (N.of_nat (List.length l0))); [lia|].
            injection A as <-. right. exists l, [PIdx i], (CList s). repeat split; auto. discriminate.
            cbn. rewrite Ey. apply nth_error_None in G. rewrite G. reflexivity. }
      + cbn [resolve_check] in A. pose proof (get_path_spec q st l d false W P) as G. rewrite Q in G. unfold missing in G.
        rewrite (bind_ok _ _ _ _ _ G) in A. injection A as <-. right. exists l, (q ++ [e]), d. repeat split; auto.
        * destruct q; discriminate.
        * clear -Q. revert d Q. induction q as [|e' q IH]; intros d Q; cbn in *; [discriminate|]. destruct (child st d e'); auto. }
  intros E. unfold see. rewrite X. rewrite (H es _ (cell_at st c es)) by (try exact E; left; exists (LVar x), c; auto).
  destruct (cell_at st c es); reflexivity.
Qed.
Print Assumptions C13_chain_exact.

Example C13_demo :
  chase (RRef (LVar 0)) [FAt (PKey ka); FAt (PIdx 7); FAt (PKey kn); FAt (PIdx 0)] demo_st
    = (Ok (RProxy (LKey 0 ka) [PIdx 7; PKey kn; PIdx 0]), demo_st) /\
  lookups [(0%nat, [FAt (PKey ka); FAt (PIdx 7)], AGetDef (PKey kn) CNull); (0%nat, [FAtPath [PKey kb; PIdx 3]], ARead);
           (1%nat, [], AHasPath [PKey kn; PIdx 0; PIdx 0])] demo_st = demo_st.
Proof. split; [vm_compute; reflexivity|apply C13_lookups_change_nothing]. Qed.

(** Get with a default does not give the default on a reference to something missing: it
    throws (Proxy::GetConstKey resolves with ProxyResolveThrow). *)
Theorem C13_default_refuted : exists st r d, wf st /\
  chase (RRef (LVar 0)) [FAt (PKey ka)] st = (Ok r, st) /\
  get_def r (PKey kb) d st = (Throw KeyError, st).
Proof.
  exists (HState [CMap 0] [StMap []]), (RProxy (LVar 0) [PKey ka]), (CInt 7).
  split; [apply wfb_sound; vm_compute; reflexivity|]. split; vm_compute; reflexivity.
Qed.
Print Assumptions C13_default_refuted.
