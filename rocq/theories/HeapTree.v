(** Variants that are trees: a cell whose containers are its own. *)
From Coq Require Import Permutation.
From Verif Require Import Base Float Value Blob Path Numeric Heap HeapProofs HeapSpec ValueOps.
Open Scope N_scope.

(** The cell reads as the tree [v], and the list and map storages in it, from the top down and
    left to right, are [F].  Strings and blobs may be shared. *)
Fixpoint owns (h : list storage) (v : value) (c : cell) (F : list nat) : Prop :=
  match v, c with
  | VNull, CNull => F = []
  | VBool b, CBool b' => b = b' /\ F = []
  | VInt z, CInt z' => z = z' /\ F = []
  | VUns n, CUns n' => n = n' /\ F = []
  | VFlt x, CFlt x' => x = x' /\ F = []
  | VStr b, CStr s => nth_error h s = Some (StStr b) /\ F = []
  | VBlob b, CBlob o => match o with Some s => nth_error h s = Some (StBlob b) | None => b = [] end /\ F = []
  | VList vs, CList s =>
      exists cs Fs, nth_error h s = Some (StList cs) /\ F = s :: List.concat Fs /\
        (fix go vs cs Fs := match vs, cs, Fs with
                            | [], [], [] => True
                            | v :: vs, c :: cs, f :: Fs => owns h v c f /\ go vs cs Fs
                            | _, _, _ => False
                            end) vs cs Fs
  | VMap vm, CMap s =>
      exists cm Fs, nth_error h s = Some (StMap cm) /\ F = s :: List.concat Fs /\ msorted vm /\
        List.map fst vm = List.map fst cm /\
        (fix go vm cm Fs := match vm, cm, Fs with
                            | [], [], [] => True
                            | kv :: vm, kc :: cm, f :: Fs => owns h (snd kv) (snd kc) f /\ go vm cm Fs
                            | _, _, _ => False
                            end) vm cm Fs
  | _, _ => False
  end.
Fixpoint owns_list (h : list storage) (vs : list value) (cs : list cell) (Fs : list (list nat)) : Prop :=
  match vs, cs, Fs with
  | [], [], [] => True
  | v :: vs, c :: cs, f :: Fs => owns h v c f /\ owns_list h vs cs Fs
  | _, _, _ => False
  end.
Lemma owns_VList h vs s F : owns h (VList vs) (CList s) F <->
  exists cs Fs, nth_error h s = Some (StList cs) /\ F = s :: List.concat Fs /\ owns_list h vs cs Fs.
Proof.
  cbn [owns]; split; intros (cs & Fs & E & -> & H); exists cs, Fs; (split; [exact E|split; [reflexivity|]]); clear E; revert cs Fs H;
    induction vs as [|v vs IH]; intros [|c cs] [|f Fs] H; cbn [owns_list] in *; auto; destruct H; split; auto; apply IH; auto.
Qed.
Lemma owns_VMap h vm s F : owns h (VMap vm) (CMap s) F <->
  exists cm Fs, nth_error h s = Some (StMap cm) /\ F = s :: List.concat Fs /\ msorted vm /\
    List.map fst vm = List.map fst cm /\ owns_list h (List.map snd vm) (List.map snd cm) Fs.
Proof.
  cbn [owns]; split; intros (cs & Fs & E & -> & HS & HK & H); exists cs, Fs; (repeat split; try assumption); clear E HS HK; revert cs Fs H;
    induction vm as [|v vs IH]; intros [|c cs] [|f Fs] H; cbn [owns_list List.map] in *; auto; destruct H; split; auto; apply IH; auto.
Qed.

Definition container (x : storage) : Prop := match x with StList _ | StMap _ => True | _ => False end.

Lemma owns_list_In h vs cs Fs s : owns_list h vs cs Fs -> In s (List.concat Fs) ->
  exists v c f, In v vs /\ owns h v c f /\ In s f.
Proof.
  revert cs Fs; induction vs as [|v vs IH]; intros [|c cs] [|f Fs]; cbn [owns_list]; try tauto; [intros _ []|].
  intros [A B] I. cbn in I. apply in_app_or in I. destruct I as [I|I].
  - exists v, c, f. cbn. auto.
  - destruct (IH _ _ B I) as (v1 & c1 & f1 & I1 & H). exists v1, c1, f1. cbn. tauto.
Qed.
Lemma owns_In h v : forall c F s, owns h v c F -> In s F -> exists x, nth_error h s = Some x /\ container x.
Proof.
  induction v as [| | | | | |vs IH|vm IH|] using value_ind'; intros c F t O I;
    try (destruct c; cbn [owns] in O; try tauto; repeat match goal with H : _ /\ _ |- _ => destruct H end; subst; destruct I; fail).
  - destruct c; try tauto. apply owns_VList in O. destruct O as (cs & Fs & E & -> & O).
    destruct I as [<-|I]; [exists (StList cs); cbn; auto|].
    destruct (owns_list_In _ _ _ _ _ O I) as (v & c & f & I1 & O1 & I2). rewrite Forall_forall in IH. eapply IH; eauto.
  - destruct c; try tauto. apply owns_VMap in O. destruct O as (cs & Fs & E & -> & _ & _ & O).
    destruct I as [<-|I]; [exists (StMap cs); cbn; auto|].
    destruct (owns_list_In _ _ _ _ _ O I) as (v & c & f & I1 & O1 & I2). apply in_map_iff in I1. destruct I1 as (kv & <- & I1).
    rewrite Forall_forall in IH. eapply (IH _ I1); eauto.
Qed.
Lemma owns_lt h v c F s : owns h v c F -> In s F -> (s < List.length h)%nat.
Proof. intros O I. destruct (owns_In _ _ _ _ _ O I) as (x & E & _). apply nth_error_Some. congruence. Qed.

Lemma owns_list_frame h h' vs cs Fs :
  Forall (fun v => forall c F, (forall s, In s F -> nth_error h' s = nth_error h s) -> owns h v c F -> owns h' v c F) vs ->
  (forall s, In s (List.concat Fs) -> nth_error h' s = nth_error h s) -> owns_list h vs cs Fs -> owns_list h' vs cs Fs.
Proof.
  intros P. revert cs Fs; induction P as [|v vs Hv P IH]; intros [|c cs] [|f Fs]; cbn [owns_list]; auto.
  intros A [B1 B2]. cbn in A. split; [apply Hv|apply IH]; auto; intros; apply A, in_or_app; auto.
Qed.
(** Storages outside do not matter, as long as strings and blobs stay. *)
Lemma owns_frame h h' v : (forall s x, nth_error h s = Some x -> ~ container x -> nth_error h' s = Some x) ->
  forall c F, (forall s, In s F -> nth_error h' s = nth_error h s) -> owns h v c F -> owns h' v c F.
Proof.
  intros N. induction v as [| | | | | |vs IH|vm IH|] using value_ind'; intros c F A O; destruct c; cbn [owns] in O; try tauto; try (cbn [owns]; tauto).
  - cbn [owns]. destruct O as [E ->]. split; auto.
  - apply owns_VList in O. apply owns_VList. destruct O as (cs & Fs & E & -> & O). exists cs, Fs.
    split; [rewrite A; cbn; auto|split; auto]. apply owns_list_frame with (h := h); auto. intros; apply A; cbn; auto.
  - apply owns_VMap in O. apply owns_VMap. destruct O as (cs & Fs & E & -> & HS & HK & O). exists cs, Fs.
    split; [rewrite A; cbn; auto|repeat split; auto]. apply owns_list_frame with (h := h); auto.
    + rewrite Forall_forall in *. intros v I. apply in_map_iff in I. destruct I as (kv & <- & I). apply (IH _ I).
    + intros; apply A; cbn; auto.
  - cbn [owns]. destruct O as [E ->]. split; auto. destruct s; auto.
Qed.
Lemma owns_sorted h v : forall c F, owns h v c F -> vsorted v.
Proof.
  assert (L : forall vs cs Fs, owns_list h vs cs Fs -> Forall (fun v => forall c F, owns h v c F -> vsorted v) vs -> Forall vsorted vs).
  { induction vs as [|v0 vs IH]; intros [|c cs] [|f Fs]; cbn [owns_list]; try tauto; auto. intros [A B] G. inversion G; subst.
    constructor; eauto. }
  induction v as [| | | | | |vs IH|vm IH|] using value_ind'; intros c F O; destruct c; cbn [owns] in O; try tauto; try exact I.
  - apply owns_VList in O. apply vsorted_list. destruct O as (cs & Fs & _ & _ & O). eauto.
  - apply owns_VMap in O. apply vsorted_map. destruct O as (cs & Fs & _ & _ & HS & _ & O). split; auto.
    apply L in O. 2:{ rewrite Forall_forall in *. intros v J. apply in_map_iff in J. destruct J as (kv & <- & J). apply (IH _ J). }
    rewrite Forall_forall in *. intros kv J. apply O, in_map, J.
Qed.
Lemma owns_reads h v : forall c F, owns h v c F -> reads h v c.
Proof.
  induction v as [| | | | | |vs IH|vm IH|] using value_ind'; intros c F O; destruct c; cbn [owns] in O; try tauto; cbn [reads]; try tauto.
  - apply owns_VList in O. apply reads_VList. destruct O as (cs & Fs & E & _ & O). exists cs. split; auto. clear E.
    revert cs Fs O; induction IH as [|v vs Hv P IH]; intros [|c cs] [|f Fs]; cbn [owns_list reads_list]; try tauto. intros [A B]. split; eauto.
  - apply owns_VMap in O. apply reads_VMap. destruct O as (cs & Fs & E & _ & _ & K & O). exists cs. split; auto. clear E.
    revert cs Fs K O; induction IH as [|v vs Hv P IH]; intros [|c cs] [|f Fs]; cbn [owns_list reads_map List.map]; try tauto; try discriminate.
    intros K [A B]. injection K as K1 K2. repeat split; eauto.
Qed.

Lemma owns_list_app h vs1 vs2 cs1 cs2 Fs1 Fs2 :
  owns_list h vs1 cs1 Fs1 -> owns_list h vs2 cs2 Fs2 -> owns_list h (vs1 ++ vs2) (cs1 ++ cs2) (Fs1 ++ Fs2).
Proof. revert cs1 Fs1; induction vs1 as [|v vs IH]; intros [|c cs] [|f Fs]; cbn [owns_list app]; try tauto. intros [A B] C; split; auto. Qed.
Lemma owns_list_app_inv h vs1 vs2 cs Fs : owns_list h (vs1 ++ vs2) cs Fs ->
  exists cs1 cs2 Fs1 Fs2, cs = cs1 ++ cs2 /\ Fs = Fs1 ++ Fs2 /\ List.length cs1 = List.length vs1 /\
    owns_list h vs1 cs1 Fs1 /\ owns_list h vs2 cs2 Fs2.
Proof.
  revert cs Fs; induction vs1 as [|v vs IH]; intros cs Fs O.
  - exists [], cs, [], Fs. cbn. auto.
  - destruct cs as [|c cs], Fs as [|f Fs]; cbn [app owns_list] in O; try tauto. destruct O as [A B].
    destruct (IH _ _ B) as (cs1 & cs2 & Fs1 & Fs2 & -> & -> & L & O1 & O2).
    exists (c :: cs1), cs2, (f :: Fs1), Fs2. cbn. repeat split; auto.
Qed.
Lemma owns_list_length h vs cs Fs : owns_list h vs cs Fs -> List.length cs = List.length vs.
Proof. revert cs Fs; induction vs as [|v vs IH]; intros [|c cs] [|f Fs]; cbn [owns_list]; try tauto. intros [_ B]. cbn. f_equal. eauto. Qed.
Lemma owns_list_frame' h h' vs cs Fs : (forall s x, nth_error h s = Some x -> ~ container x -> nth_error h' s = Some x) ->
  (forall s, In s (List.concat Fs) -> nth_error h' s = nth_error h s) -> owns_list h vs cs Fs -> owns_list h' vs cs Fs.
Proof. intros N. apply owns_list_frame. apply Forall_forall. intros v _. apply owns_frame, N. Qed.

(** ** Writing at a location *)
Definition patch (l : loc) (c : cell) (s : nat) (o : option storage) : option storage :=
  match l, o with
  | LIdx s' i, Some (StList cs) => if Nat.eqb s s' then Some (StList (lput cs (N.to_nat i) c)) else o
  | LKey s' k, Some (StMap m) => if Nat.eqb s s' then Some (StMap (mset k c m)) else o
  | _, _ => o
  end.
Definition patchv (l : loc) (c : cell) (vs : list cell) : list cell :=
  match l with LVar x => lput vs x c | _ => vs end.
Definition lsorted (st : hstate) (l : loc) : Prop :=
  match l with LKey s _ => forall m, nth_error (h_heap st) s = Some (StMap m) -> msorted m | _ => True end.
Definition outside (l : loc) (D : list nat) : Prop :=
  match l with LVar _ => True | LIdx s _ | LKey s _ => ~ In s D end.

Lemma mget_mset_same {A} k (x : A) m : mget k (mset k x m) = Some x.
Proof.
  induction m as [|[k' y] m IH]; cbn; rewrite ?beqb_refl; auto.
  destruct (bcmp k k') eqn:B; cbn; rewrite ?beqb_refl; auto.
  destruct (beqb k k') eqn:E; auto. apply beqb_eq in E. subst. rewrite bcmp_refl in B. discriminate.
Qed.
Lemma mset_mset {A} k (x y : A) m : mset k y (mset k x m) = mset k y m.
Proof.
  induction m as [|[k' z] m IH]; cbn; rewrite ?bcmp_refl; auto.
  destruct (bcmp k k') eqn:B; cbn; rewrite ?bcmp_refl, ?B; auto. rewrite IH. reflexivity.
Qed.
Lemma mset_same {A} k (x : A) m : msorted m -> mget k m = Some x -> mset k x m = m.
Proof.
  intros K E. apply msorted_ext; auto using msorted_mset. intros k'. rewrite mget_mset by auto.
  destruct (beqb k' k) eqn:B; auto. apply beqb_eq in B. congruence.
Qed.
Lemma lput_lput {A} (l : list A) i x y : lput (lput l i x) i y = lput l i y.
Proof. revert i; induction l as [|z l IH]; intros [|i]; cbn; auto. rewrite IH. reflexivity. Qed.
Lemma lput_same {A} (l : list A) i x : nth_error l i = Some x -> lput l i x = l.
Proof. revert i; induction l as [|z l IH]; intros [|i]; cbn; try discriminate. congruence. intros E. rewrite IH; auto. Qed.

Lemma patch_patch l c1 c2 s o : patch l c2 s (patch l c1 s o) = patch l c2 s o.
Proof.
  destruct l, o as [[]|]; cbn; auto; destruct (Nat.eqb s s0) eqn:E; cbn; rewrite ?E; auto.
  - rewrite lput_lput. reflexivity.
  - rewrite mset_mset. reflexivity.
Qed.
Lemma patchv_patchv l c1 c2 vs : patchv l c2 (patchv l c1 vs) = patchv l c2 vs.
Proof. destruct l; cbn; auto. apply lput_lput. Qed.
Lemma patch_none l c s o : o = None <-> patch l c s o = None.
Proof. destruct l, o as [[]|]; cbn; try tauto; destruct (Nat.eqb s s0); split; congruence. Qed.
Lemma patch_out l c s o D : outside l D -> In s D -> patch l c s o = o.
Proof. intros O I. destruct l, o as [[]|]; cbn in *; auto; destruct (Nat.eqb_spec s s0); auto; subst; tauto. Qed.
Lemma patch_keep l c s x : ~ container x -> patch l c s (Some x) = Some x.
Proof. destruct l, x; cbn; tauto. Qed.
Lemma patch_same st l c s : lsorted st l -> peek st l = Some c -> patch l c s (nth_error (h_heap st) s) = nth_error (h_heap st) s.
Proof.
  destruct l as [x|s' i|s' k]; cbn; auto; intros K P.
  - destruct (nth_error (h_heap st) s) as [[]|] eqn:E; auto. destruct (Nat.eqb_spec s s'); auto. subst. rewrite E in P.
    rewrite lput_same; auto.
  - destruct (nth_error (h_heap st) s) as [[]|] eqn:E; auto. destruct (Nat.eqb_spec s s'); auto. subst. rewrite E in P.
    rewrite mset_same; auto.
Qed.
Lemma patchv_same st l c : peek st l = Some c -> patchv l c (h_vars st) = h_vars st.
Proof. destruct l; cbn; auto. apply lput_same. Qed.

Lemma store_ok st l c0 c : peek st l = Some c0 -> exists st', store l c st = (Ok tt, st') /\
  h_vars st' = patchv l c (h_vars st) /\ (forall s, nth_error (h_heap st') s = patch l c s (nth_error (h_heap st) s)) /\
  hlen st' = hlen st.
Proof.
  intros P. unfold store. rewrite P. eexists. split; [reflexivity|]. destruct l as [x|s' i|s' k]; cbn [peek patch patchv h_vars h_heap] in *; auto.
  - destruct (nth_error (h_heap st) s') as [[|cs| |]|] eqn:E; try discriminate. cbn. repeat split.
    + intros s. rewrite nth_lput, E. destruct (Nat.eqb_spec s s'); subst; rewrite ?E; auto. destruct (nth_error (h_heap st) s) as [[]|]; auto.
    + unfold hlen; cbn. apply length_lput.
  - destruct (nth_error (h_heap st) s') as [[|cs|m |]|] eqn:E; try discriminate. cbn. repeat split.
    + intros s. rewrite nth_lput, E. destruct (Nat.eqb_spec s s'); subst; rewrite ?E; auto. destruct (nth_error (h_heap st) s) as [[]|]; auto.
    + unfold hlen; cbn. apply length_lput.
Qed.
(** A location after a write at it. *)
Lemma peek_patched st l c0 c st' : peek st l = Some c0 -> h_vars st' = patchv l c (h_vars st) ->
  (forall s, ~ outside l [s] -> nth_error (h_heap st') s = patch l c s (nth_error (h_heap st) s)) -> peek st' l = Some c.
Proof.
  destruct l as [x|s i|s k]; cbn [peek patchv outside]; intros P V H.
  - rewrite V, nth_lput, Nat.eqb_refl, P. reflexivity.
  - rewrite H by (cbn; tauto). destruct (nth_error (h_heap st) s) as [[]|]; try discriminate. cbn. rewrite Nat.eqb_refl.
    unfold nthN in *. rewrite nth_lput, Nat.eqb_refl, P. reflexivity.
  - rewrite H by (cbn; tauto). destruct (nth_error (h_heap st) s) as [[]|]; try discriminate. cbn. rewrite Nat.eqb_refl.
    apply mget_mset_same.
Qed.
Lemma lsorted_patched st l c st' : lsorted st l ->
  (forall s, ~ outside l [s] -> nth_error (h_heap st') s = patch l c s (nth_error (h_heap st) s)) -> lsorted st' l.
Proof.
  destruct l as [x|s i|s k]; cbn [lsorted]; auto. intros K H m. rewrite H by (cbn; tauto).
  destruct (nth_error (h_heap st) s) as [[]|]; cbn; try discriminate. rewrite Nat.eqb_refl. intros E; injection E as <-.
  apply msorted_mset; auto.
Qed.

(** ** The tree at a location, and what an operation does to it *)
Record tree (st : hstate) (l : loc) (v : value) (c : cell) (F : list nat) : Prop := {
  tr_peek : peek st l = Some c;
  tr_owns : owns (h_heap st) v c F;
  tr_nodup : NoDup F;
  tr_out : outside l F;
  tr_sort : lsorted st l }.

(** The location now has the tree [v'] in the cell [c']; its containers were there before, belonged
    to the tree [G] that was stored, or are new; nothing else has changed. *)
Definition turns (st : hstate) (l : loc) (F G : list nat) (st' : hstate) (v' : value) (c' : cell) (F' : list nat) : Prop :=
  tree st' l v' c' F' /\
  (forall s, In s F' -> In s F \/ In s G \/ (hlen st <= s)%nat) /\
  h_vars st' = patchv l c' (h_vars st) /\
  (forall s, (s < hlen st)%nat -> ~ In s F -> nth_error (h_heap st') s = patch l c' s (nth_error (h_heap st) s)) /\
  (hlen st <= hlen st')%nat.
Definition becomes (st : hstate) (l : loc) (F G : list nat) (st' : hstate) (v' : value) : Prop :=
  exists c' F', turns st l F G st' v' c' F'.

Lemma outside_incl l F F' : outside l F -> (forall s, In s F' -> In s F) -> outside l F'.
Proof. destruct l; cbn; auto. Qed.
Lemma peek_lt st l c s : peek st l = Some c -> ~ outside l [s] -> (s < hlen st)%nat.
Proof.
  unfold hlen. destruct l as [x|s' i|s' k]; cbn [peek outside]; intros P O; try tauto;
    (destruct (Nat.eq_dec s' s) as [->|N]; [|destruct O; intros [J|[]]; congruence]); apply nth_error_Some; intros E; rewrite E in P; discriminate.
Qed.
Lemma outside_not l D s : outside l D -> ~ outside l [s] -> ~ In s D.
Proof.
  destruct l as [x|s' i|s' k]; cbn [outside]; intros A B I; try tauto;
    (destruct (Nat.eq_dec s' s) as [->|N]; [auto|destruct B; intros [J|[]]; congruence]).
Qed.
Lemma peek_heap st l c s : peek st l = Some c -> ~ outside l [s] -> exists x, nth_error (h_heap st) s = Some x /\ container x.
Proof.
  destruct l as [x|s' i|s' k]; cbn [peek outside]; intros P O; try tauto;
    (destruct (Nat.eq_dec s' s) as [->|N]; [|destruct O; intros [J|[]]; congruence]);
    destruct (nth_error (h_heap st) s) as [[]|]; try discriminate; eexists; (split; [reflexivity|exact I]).
Qed.

(** Other trees stay when what has changed lies elsewhere. *)
Lemma becomes_keep st l v c F G st' v' y cy H : tree st l v c F -> becomes st l F G st' v' ->
  owns (h_heap st) y cy H -> (forall s, In s H -> ~ In s F) -> outside l H -> owns (h_heap st') y cy H.
Proof.
  intros T (c' & F' & T' & I & V & N & L) O D X. apply owns_frame with (h := h_heap st); auto.
  - intros s x E C. rewrite N.
    + rewrite E. apply patch_keep, C.
    + unfold hlen. apply nth_error_Some. congruence.
    + intros J. destruct (owns_In _ _ _ _ _ (tr_owns _ _ _ _ _ T) J) as (x' & E' & C'). congruence.
  - intros s J. rewrite N; auto.
    + eapply patch_out; eauto.
    + unfold hlen. eapply owns_lt; eauto.
Qed.

Lemma turns_trans st l F G st1 v1 c1 F1 st2 v2 c2 F2 :
  turns st l F [] st1 v1 c1 F1 -> turns st1 l F1 G st2 v2 c2 F2 -> turns st l F G st2 v2 c2 F2.
Proof.
  intros (T1 & I1 & V1 & N1 & L1) (T2 & I2 & V2 & N2 & L2). split; [exact T2|]. repeat split; try lia.
  - intros s J. destruct (I2 _ J) as [J'|[J'|J']]; auto; [|right; right; lia]. destruct (I1 _ J') as [|[[]|]]; auto.
  - rewrite V2, V1. apply patchv_patchv.
  - intros s Hs NF. rewrite N2; [|lia|]. rewrite N1; auto. apply patch_patch.
    intros J. destruct (I1 _ J) as [|[[]|]]; auto; lia.
Qed.

(** ** One element of a container *)
Definition slot (s : nat) (e : pelem) : loc := match e with PKey k => LKey s k | PIdx i => LIdx s i end.
Definition slot_get (x : storage) (e : pelem) : option cell :=
  match x, e with StMap m, PKey k => mget k m | StList l, PIdx i => nthN l i | _, _ => None end.
Definition cput (l : list cell) (i : N) (c : cell) : list cell :=
  if i <? lsize l then lput l (N.to_nat i) c else lput (lresize l (i + 1)) (N.to_nat i) c.
Definition slot_put (x : storage) (e : pelem) (c : cell) : storage :=
  match x, e with
  | StMap m, PKey k => StMap (mset k c m)
  | StList l, PIdx i => StList (cput l i c)
  | _, _ => x
  end.
(** The storage of a container that has elements like [e]. *)
Definition base (c : cell) (e : pelem) : option nat :=
  match c, e with CMap s, PKey _ => Some s | CList s, PIdx _ => Some s | _, _ => None end.

Lemma mset_split {A} k (m : list (bytes * A)) : msorted m -> exists m1 m2,
  (forall k', In k' (mkeys m1) -> bcmp k' k = Lt) /\ (forall k', In k' (mkeys m2) -> bcmp k k' = Lt) /\
  (m = m1 ++ m2 \/ exists w, m = m1 ++ (k, w) :: m2).
Proof.
  induction m as [|[k' y] m IH]; intros K.
  - exists [], []. cbn. intuition.
  - cbn in K. destruct K as [K1 K2]. destruct (bcmp k k') eqn:B.
    + apply bcmp_eq in B. subst k'. exists [], m. split; [intros ? []|]. split; auto. right. exists y. reflexivity.
    + exists [], ((k', y) :: m). split; [intros ? []|]. split; auto. intros k2 [<-|I]; auto. eapply bcmp_lt_trans; eauto.
    + destruct (IH K2) as (m1 & m2 & H1 & H2 & H3). exists ((k', y) :: m1), m2.
      split; [intros k2 [<-|I]; auto; apply bcmp_gt_lt; auto|]. split; auto.
      destruct H3 as [->|[w ->]]; [left|right; exists w]; reflexivity.
Qed.
Lemma mget_below {A} k (m1 m : list (bytes * A)) : (forall k', In k' (mkeys m1) -> bcmp k' k = Lt) -> mget k (m1 ++ m) = mget k m.
Proof.
  induction m1 as [|[k' y] m1 IH]; intros H; cbn; auto. destruct (beqb k k') eqn:B.
  - apply beqb_eq in B. subst. specialize (H k' (or_introl eq_refl)). rewrite bcmp_refl in H. discriminate.
  - apply IH. intros; apply H; cbn; auto.
Qed.
Lemma mget_above {A} k (m : list (bytes * A)) : (forall k', In k' (mkeys m) -> bcmp k k' = Lt) -> mget k m = None.
Proof. intros H. apply mget_None_notin. intros I. specialize (H _ I). rewrite bcmp_refl in H. discriminate. Qed.
Lemma mset_below {A} k (x : A) (m1 m : list (bytes * A)) : (forall k', In k' (mkeys m1) -> bcmp k' k = Lt) -> mset k x (m1 ++ m) = m1 ++ mset k x m.
Proof.
  induction m1 as [|[k' y] m1 IH]; intros H; cbn; auto. assert (B := H k' (or_introl eq_refl)). apply bcmp_gt_lt in B. rewrite B.
  f_equal. apply IH. intros; apply H; cbn; auto.
Qed.
Lemma mset_above {A} k (x : A) (m : list (bytes * A)) : (forall k', In k' (mkeys m) -> bcmp k k' = Lt) -> mset k x m = (k, x) :: m.
Proof. destruct m as [|[k' y] m]; intros H; cbn; auto. rewrite (H k' (or_introl eq_refl)). reflexivity. Qed.
Lemma mset_here {A} k (x w : A) m : mset k x ((k, w) :: m) = (k, x) :: m.
Proof. cbn. rewrite bcmp_refl. reflexivity. Qed.
Lemma mget_here {A} k (w : A) m : mget k ((k, w) :: m) = Some w.
Proof. cbn. rewrite beqb_refl. reflexivity. Qed.

Lemma msorted_keys {A B} (m : list (bytes * A)) (m' : list (bytes * B)) : List.map fst m = List.map fst m' -> msorted m -> msorted m'.
Proof.
  revert m'; induction m as [|[k x] m IH]; intros [|[k' x'] m']; cbn; try discriminate; auto.
  intros E [K1 K2]. injection E as -> E. split; auto. unfold mkeys in *. rewrite <- E. auto.
Qed.

Lemma vput_lt l i x : (i < List.length l)%nat -> vput l i x = firstn i l ++ x :: skipn (S i) l.
Proof. revert i; induction l as [|y l IH]; intros [|i] H; cbn in *; try lia; auto. rewrite IH by lia. reflexivity. Qed.
Lemma lput_lt {A} (l : list A) i x : (i < List.length l)%nat -> lput l i x = firstn i l ++ x :: skipn (S i) l.
Proof. revert i; induction l as [|y l IH]; intros [|i] H; cbn in *; try lia; auto. rewrite IH by lia. reflexivity. Qed.
Lemma vput_ge l i x : (List.length l <= i)%nat -> vput l i x = l ++ repeat VNull (i - List.length l) ++ [x].
Proof.
  revert i; induction l as [|y l IH]; intros i H; cbn [List.length app] in *.
  - rewrite Nat.sub_0_r. clear H. induction i as [|i IHi]; cbn; auto. rewrite IHi. reflexivity.
  - destruct i as [|i]; [lia|]. cbn. rewrite IH by lia. reflexivity.
Qed.
Lemma lput_last {A} (l : list A) n y x : n = List.length l -> lput (l ++ [y]) n x = l ++ [x].
Proof. intros ->. induction l as [|z l IH]; cbn; auto. rewrite IH. reflexivity. Qed.
Lemma cput_ge l i c : (lsize l <= i) -> cput l i c = l ++ repeat CNull (N.to_nat i - List.length l) ++ [c].
Proof.
  unfold lsize. intros H. unfold cput, lresize, lsize. destruct (N.ltb_spec i (N.of_nat (List.length l))); [lia|].
  replace (N.to_nat (i + 1)) with (S (N.to_nat i)) by lia.
  rewrite firstn_all2 by lia. replace (S (N.to_nat i) - List.length l)%nat with ((N.to_nat i - List.length l) + 1)%nat by lia.
  rewrite repeat_app, app_assoc. cbn [repeat]. rewrite lput_last; [rewrite app_assoc; reflexivity|].
  rewrite app_length, repeat_length. lia.
Qed.
Lemma owns_list_nulls h n : owns_list h (repeat VNull n) (repeat CNull n) (repeat [] n).
Proof. induction n; cbn [repeat owns_list owns]; auto. Qed.
Lemma concat_nils n : List.concat (repeat (@nil nat) n) = [].
Proof. induction n; cbn; auto. Qed.
Lemma nth_split_len {A} (l : list A) i x : nth_error l i = Some x -> l = firstn i l ++ x :: skipn (S i) l.
Proof. revert i; induction l as [|y l IH]; intros [|i]; cbn; try discriminate. congruence. intros E. f_equal. apply IH, E. Qed.
Lemma map_app_inv {A B} (f : A -> B) l m1 m2 : List.map f l = m1 ++ m2 -> exists l1 l2, l = l1 ++ l2 /\ List.map f l1 = m1 /\ List.map f l2 = m2.
Proof.
  revert l; induction m1 as [|y m1 IH]; intros l E.
  - exists [], l. auto.
  - destruct l as [|x l]; [discriminate|]. cbn in E. injection E as E1 E2. destruct (IH _ E2) as (l1 & l2 & -> & <- & <-).
    exists (x :: l1), l2. rewrite <- E1. auto.
Qed.

(** The part of a container under [e], and the container with that part replaced. *)
Lemma owns_slot h v c F e s : owns h v c F -> base c e = Some s -> exists x A Fw B,
  nth_error h s = Some x /\ F = s :: A ++ Fw ++ B /\ kind_for e v /\
  (match x with StMap m => msorted m | _ => True end) /\
  (match vchild v e with
   | Some w => exists cw, slot_get x e = Some cw /\ owns h w cw Fw
   | None => slot_get x e = None /\ Fw = []
   end) /\
  forall h' w' cw' Fw', nth_error h' s = Some (slot_put x e cw') ->
    (forall t y, nth_error h t = Some y -> ~ container y -> nth_error h' t = Some y) ->
    (forall t, In t (A ++ B) -> nth_error h' t = nth_error h t) -> owns h' w' cw' Fw' ->
    exists v', vset_elem v e w' = Some v' /\ owns h' v' c (s :: A ++ Fw' ++ B).
Proof.
  intros O Bs. destruct c; try discriminate; destruct e as [k|i]; try discriminate; injection Bs as ->; destruct v; try (destruct O; fail).
  - apply owns_VList in O. destruct O as (cs & Fs & E & -> & O). assert (L := owns_list_length _ _ _ _ O).
    destruct (nth_error l (N.to_nat i)) as [w|] eqn:W.
    + rewrite (nth_split_len _ _ _ W) in O. apply owns_list_app_inv in O.
      destruct O as (cs1 & cs2 & Fs1 & Fs2 & -> & -> & L1 & O1 & O2). destruct cs2 as [|cw cs2], Fs2 as [|Fw Fs2]; cbn [owns_list] in O2; try tauto.
      destruct O2 as [Ow O2]. assert (Li : (N.to_nat i < List.length l)%nat) by (apply nth_error_Some; congruence).
      rewrite firstn_length_le in L1 by lia.
      assert (P : forall c', cput (cs1 ++ cw :: cs2) i c' = cs1 ++ c' :: cs2).
      { intros c'. unfold cput, lsize. destruct (N.ltb_spec i (N.of_nat (List.length (cs1 ++ cw :: cs2)))).
        - rewrite <- L1. clear. induction cs1; cbn; congruence.
        - rewrite app_length in *. cbn in *. lia. }
      exists (StList (cs1 ++ cw :: cs2)), (List.concat Fs1), Fw, (List.concat Fs2). split; [exact E|]. split; [rewrite concat_app; reflexivity|].
      split; [exists l; reflexivity|]. split; [exact I|]. split.
      { cbn [vchild slot_get]. rewrite W. exists cw. split; auto. unfold nthN. rewrite nth_error_app2 by lia. rewrite L1, Nat.sub_diag. reflexivity. }
      intros h' w' cw' Fw' E' NC D Ow'. cbn [vset_elem]. eexists. split; [reflexivity|]. apply owns_VList.
      cbn [slot_put] in E'. rewrite P in E'. exists (cs1 ++ cw' :: cs2), (Fs1 ++ Fw' :: Fs2). split; [exact E'|]. split; [rewrite concat_app; reflexivity|].
      rewrite vput_lt by lia. apply owns_list_app; [|split; auto].
      * eapply owns_list_frame'; eauto. intros; apply D, in_or_app; auto.
      * eapply owns_list_frame'; eauto. intros; apply D, in_or_app; auto.
    + assert (Li : (List.length l <= N.to_nat i)%nat) by (apply nth_error_None; auto).
      exists (StList cs), (List.concat Fs), [], []. split; [exact E|]. split; [cbn; rewrite app_nil_r; reflexivity|].
      split; [exists l; reflexivity|]. split; [exact I|]. split.
      { cbn [vchild slot_get]. rewrite W. split; auto. apply nth_error_None. lia. }
      intros h' w' cw' Fw' E' NC D Ow'. cbn [vset_elem]. eexists. split; [reflexivity|]. apply owns_VList.
      cbn [slot_put] in E'. rewrite cput_ge in E' by (unfold lsize; lia). rewrite vput_ge by lia. rewrite L in E'.
      eexists _, (Fs ++ repeat [] (N.to_nat i - List.length l) ++ [Fw']). split; [exact E'|]. split.
      { rewrite !concat_app, concat_nils. cbn. reflexivity. }
      apply owns_list_app; [|apply owns_list_app; [apply owns_list_nulls|split; [auto|exact I]]].
      eapply owns_list_frame'; eauto. intros; apply D. rewrite app_nil_r. auto.
  - apply owns_VMap in O. destruct O as (cm & Fs & E & -> & HS & HK & O). rename m into vm.
    assert (HS' := msorted_keys _ _ HK HS).
    destruct (mset_split k vm HS) as (vm1 & vm2 & Lo & Hi & [Ev|[w Ev]]).
    + rewrite Ev, map_app in HK, O. symmetry in HK. destruct (map_app_inv _ _ _ _ HK) as (cm1 & cm2 & Ec & K1 & K2).
      rewrite Ec, map_app in O. apply owns_list_app_inv in O. destruct O as (c1 & c2 & Fs1 & Fs2 & Ecc & -> & L1 & O1 & O2).
      assert (Ecs : c1 = List.map snd cm1 /\ c2 = List.map snd cm2).
      { assert (List.length c1 = List.length (List.map snd cm1)).
        { rewrite L1, !map_length. rewrite <- (map_length fst cm1), K1, map_length. reflexivity. }
        clear -Ecc H. revert c1 Ecc H. generalize (List.map snd cm1). induction l; intros [|y c1] Ecc H; try discriminate; cbn in *; auto.
        injection Ecc as -> Ecc. destruct (IHl c1); auto. split; congruence. }
      destruct Ecs as [-> ->].
      assert (Lo' : forall k', In k' (mkeys cm1) -> bcmp k' k = Lt) by (unfold mkeys in *; rewrite K1; auto).
      assert (Hi' : forall k', In k' (mkeys cm2) -> bcmp k k' = Lt) by (unfold mkeys in *; rewrite K2; auto).
      exists (StMap cm), (List.concat Fs1), [], (List.concat Fs2). split; [exact E|]. split; [rewrite concat_app; reflexivity|].
      split; [exists vm; reflexivity|]. split; [exact HS'|]. split.
      { cbn [vchild slot_get]. rewrite Ev, Ec, !mget_below, !mget_above by auto. auto. }
      intros h' w' cw' Fw' E' NC D Ow'. cbn [vset_elem]. eexists. split; [reflexivity|]. apply owns_VMap.
      cbn [slot_put] in E'. exists (mset k cw' cm), (Fs1 ++ Fw' :: Fs2). split; [exact E'|]. split; [rewrite concat_app; reflexivity|].
      split; [apply msorted_mset; auto|]. rewrite Ev, Ec, !mset_below, !mset_above by auto. rewrite !map_app. cbn [List.map fst snd]. split; [congruence|].
      apply owns_list_app; [|split; auto]; eapply owns_list_frame'; eauto; intros; apply D, in_or_app; auto.
    + rewrite Ev, map_app in HK, O. symmetry in HK. destruct (map_app_inv _ _ _ _ HK) as (cm1 & cm2' & Ec & K1 & K2).
      destruct cm2' as [|[k' cw] cm2]; [discriminate|]. cbn in K2. injection K2 as -> K2.
      rewrite Ec, map_app in O. apply owns_list_app_inv in O. destruct O as (c1 & c2 & Fs1 & Fs2 & Ecc & -> & L1 & O1 & O2).
      assert (Ecs : c1 = List.map snd cm1 /\ c2 = List.map snd ((k, cw) :: cm2)).
      { assert (List.length c1 = List.length (List.map snd cm1)).
        { rewrite L1, !map_length. rewrite <- (map_length fst cm1), K1, map_length. reflexivity. }
        clear -Ecc H. revert c1 Ecc H. generalize (List.map snd cm1). induction l; intros [|y c1] Ecc H; try discriminate; cbn in *; auto.
        injection Ecc as -> Ecc. destruct (IHl c1); auto. split; congruence. }
      destruct Ecs as [-> ->]. destruct Fs2 as [|Fw Fs2]; cbn [owns_list List.map] in O2; try tauto. destruct O2 as [Ow O2].
      assert (Lo' : forall k', In k' (mkeys cm1) -> bcmp k' k = Lt) by (unfold mkeys in *; rewrite K1; auto).
      exists (StMap cm), (List.concat Fs1), Fw, (List.concat Fs2). split; [exact E|]. split; [rewrite concat_app; reflexivity|].
      split; [exists vm; reflexivity|]. split; [exact HS'|]. split.
      { cbn [vchild slot_get]. rewrite Ev, Ec, !mget_below, !mget_here by auto. exists cw. auto. }
      intros h' w' cw' Fw' E' NC D Ow'. cbn [vset_elem]. eexists. split; [reflexivity|]. apply owns_VMap.
      cbn [slot_put] in E'. exists (mset k cw' cm), (Fs1 ++ Fw' :: Fs2). split; [exact E'|]. split; [rewrite concat_app; reflexivity|].
      split; [apply msorted_mset; auto|]. rewrite Ev, Ec, !mset_below, !mset_here by auto. rewrite !map_app. cbn [List.map fst snd]. split; [congruence|].
      apply owns_list_app; [|split; auto]; eapply owns_list_frame'; eauto; intros; apply D, in_or_app; auto.
Qed.

Lemma base_child v c F h e w : owns h v c F -> vchild v e = Some w -> exists s, base c e = Some s.
Proof. destruct v, e, c; cbn [vchild owns base]; try discriminate; try tauto; eauto. Qed.
Lemma base_not h v c F e : owns h v c F -> v <> VNull -> base c e = None -> ~ kind_for e v.
Proof.
  destruct v, c; cbn [owns base]; try tauto; destruct e; cbn; intros O N B; try discriminate; intros [zz Z]; discriminate.
Qed.
Lemma slot_patch s e x c c0 : slot_get x e = Some c0 -> patch (slot s e) c s (Some x) = Some (slot_put x e c).
Proof.
  destruct x, e; cbn; try discriminate; rewrite Nat.eqb_refl; auto. unfold cput, nthN, lsize. intros E.
  destruct (N.ltb_spec i (N.of_nat (List.length l))); auto.
  assert ((N.to_nat i < List.length l)%nat) by (apply nth_error_Some; congruence). lia.
Qed.
Lemma slot_patch_other s e c t o : t <> s -> patch (slot s e) c t o = o.
Proof. intros N. destruct e, o as [[]|]; cbn; auto; destruct (Nat.eqb_spec t s); congruence. Qed.
Lemma slot_peek st s e x : nth_error (h_heap st) s = Some x -> peek st (slot s e) = slot_get x e.
Proof. destruct e; cbn; intros ->; destruct x; reflexivity. Qed.

Lemma nthN_lt {A} (l : list A) i x : nthN l i = Some x -> (i <? lsize l) = true.
Proof. unfold nthN, lsize. intros E. apply N.ltb_lt. assert ((N.to_nat i < List.length l)%nat) by (apply nth_error_Some; congruence). lia. Qed.
Lemma nthN_ge {A} (l : list A) i : nthN l i = None -> (i <? lsize l) = false.
Proof. unfold nthN, lsize. intros E. apply N.ltb_ge. apply nth_error_None in E. lia. Qed.
Lemma get_elem_slot st l c e ch s x cw : peek st l = Some c -> base c e = Some s -> nth_error (h_heap st) s = Some x ->
  slot_get x e = Some cw -> get_elem l e ch st = (Ok (Some (slot s e)), st).
Proof.
  intros P B X G. destruct e as [k|i]; cbn [get_elem]; [unfold get_key|unfold get_index]; rewrite (bind_load _ _ _ _ P);
    destruct c; try discriminate; injection B as ->; destruct x; try discriminate; cbn [slot_get] in G.
  - rewrite (bind_get_map _ _ _ _ X), G. reflexivity.
  - rewrite (bind_get_list _ _ _ _ X), (nthN_lt _ _ _ G). reflexivity.
Qed.
Lemma get_elem_none st l v c F e : peek st l = Some c -> owns (h_heap st) v c F -> vchild v e = None ->
  get_elem l e false st = (Ok None, st).
Proof.
  intros P O V. destruct (base c e) as [s|] eqn:B.
  - destruct (owns_slot _ _ _ _ e s O B) as (x & A & Fw & D & X & -> & K & _ & H & _). rewrite V in H. destruct H as [G ->].
    destruct e as [k|i]; cbn [get_elem]; [unfold get_key|unfold get_index]; rewrite (bind_load _ _ _ _ P);
    destruct c; try discriminate; injection B as ->; destruct v; try tauto.
    + apply owns_VMap in O. destruct O as (cm & Fs & E & _). rewrite (bind_get_map _ _ _ _ E). assert (x = StMap cm) by congruence. subst x.
      cbn in G. rewrite G. reflexivity.
    + apply owns_VList in O. destruct O as (cm & Fs & E & _). rewrite (bind_get_list _ _ _ _ E). assert (x = StList cm) by congruence. subst x.
      cbn in G. rewrite (nthN_ge _ _ G). reflexivity.
  - destruct e as [k|i]; cbn [get_elem]; [unfold get_key|unfold get_index]; rewrite (bind_load _ _ _ _ P); destruct c; try discriminate; reflexivity.
Qed.

Lemma nodup_app {A} (l m : list A) : NoDup (l ++ m) <-> NoDup l /\ NoDup m /\ forall x, In x l -> ~ In x m.
Proof.
  induction l as [|y l IH]; cbn; split.
  - intros H. repeat split; auto. constructor.
  - tauto.
  - intros H. apply NoDup_cons_iff in H. destruct H as [H1 H2]. apply IH in H2. destruct H2 as (H2 & H3 & H4). rewrite in_app_iff in H1.
    repeat split; auto. constructor; auto. intros x [<-|I]; auto.
  - intros (H1 & H2 & H3). apply NoDup_cons_iff in H1. destruct H1 as [H0 H1]. constructor.
    + rewrite in_app_iff. intros [|]; auto. apply (H3 y); auto.
    + apply IH. repeat split; auto.
Qed.
Lemma NoDup_mid (s : nat) A Fw B : NoDup (s :: A ++ Fw ++ B) ->
  NoDup Fw /\ ~ In s Fw /\ (forall t, In t (A ++ B) -> ~ In t Fw) /\ ~ In s (A ++ B) /\ NoDup (A ++ B).
Proof.
  intros H. apply NoDup_cons_iff in H. destruct H as [N H].
  rewrite !in_app_iff in N.
  assert (H2 : NoDup (Fw ++ A ++ B)).
  { apply Permutation_NoDup with (l := A ++ Fw ++ B); auto. rewrite !app_assoc. apply Permutation_app_tail, Permutation_app_comm. }
  apply nodup_app in H2. destruct H2 as (H2 & H3 & H4). repeat split; auto.
  - intros t I J. apply (H4 t); auto.
  - rewrite in_app_iff. tauto.
Qed.
Lemma NoDup_mid_back (s : nat) A Fw B : NoDup Fw -> ~ In s Fw -> (forall t, In t (A ++ B) -> ~ In t Fw) -> ~ In s (A ++ B) -> NoDup (A ++ B) ->
  NoDup (s :: A ++ Fw ++ B).
Proof.
  intros H1 H2 H3 H4 H5. constructor.
  - rewrite !in_app_iff in *. tauto.
  - apply Permutation_NoDup with (l := Fw ++ A ++ B).
    + rewrite !app_assoc. apply Permutation_app_tail, Permutation_app_comm.
    + apply nodup_app. repeat split; auto. intros t I J. apply (H3 t); auto.
Qed.

Lemma noncontainer_kept st l v c F G st' v' : tree st l v c F -> becomes st l F G st' v' ->
  forall t y, nth_error (h_heap st) t = Some y -> ~ container y -> nth_error (h_heap st') t = Some y.
Proof.
  intros T (c' & F' & T' & I & V & N & L) s x E C. rewrite N.
  + rewrite E. apply patch_keep, C.
  + unfold hlen. apply nth_error_Some. congruence.
  + intros J. destruct (owns_In _ _ _ _ _ (tr_owns _ _ _ _ _ T) J) as (x' & E' & C'). congruence.
Qed.

Definition apart (F G : list nat) : Prop := forall s, In s F -> ~ In s G.

(** Going down to an element, changing the tree there, and what that does to the whole. *)
Lemma descend_turns st l v c F e w : tree st l v c F -> vchild v e = Some w -> exists l' cw Fw,
  (forall ch, get_elem l e ch st = (Ok (Some l'), st)) /\ tree st l' w cw Fw /\ (forall s, In s Fw -> In s F) /\
  (forall G, outside l G -> apart F G -> outside l' G) /\
  forall G st' w' cw' Fw', outside l G -> apart F G -> turns st l' Fw G st' w' cw' Fw' ->
    exists v' F', vset_elem v e w' = Some v' /\ turns st l F G st' v' c F' /\ (forall t, In t F' -> In t Fw' \/ In t F /\ ~ In t Fw).
Proof.
  intros [P O ND OL LS] W. destruct (base_child _ _ _ _ _ _ O W) as [s B].
  destruct (owns_slot _ _ _ _ e s O B) as (x & A & Fw & D & X & EF & K & SX & H & R). rewrite W in H. destruct H as (cw & G & Ow).
  rewrite EF in ND. destruct (NoDup_mid _ _ _ _ ND) as (N1 & N2 & N3 & N4 & N5).
  assert (Tw : tree st (slot s e) w cw Fw).
  { split; auto.
    - rewrite (slot_peek _ _ _ _ X). exact G.
    - destruct e; exact N2.
    - destruct e; cbn; auto. intros m Em. rewrite X in Em. injection Em as ->. exact SX. }
  exists (slot s e), cw, Fw. repeat split.
  - intros ch. eapply get_elem_slot; eauto.
  - apply Tw.
  - apply Tw.
  - apply Tw.
  - apply Tw.
  - apply Tw.
  - intros t I. rewrite EF. cbn. rewrite !in_app_iff. auto.
  - intros G0 OG AG. assert (~ In s G0) by (apply AG; rewrite EF; cbn; auto). destruct e; exact H.
  - intros G0 st' w' cw' Fw' OG AG Bc. assert (NC := noncontainer_kept _ _ _ _ _ _ _ _ Tw (ex_intro _ _ (ex_intro _ _ Bc))).
    destruct Bc as (Tw' & I' & V' & NF & Len).
    assert (Hs : (s < hlen st)%nat) by (unfold hlen; apply nth_error_Some; congruence).
    assert (Es : nth_error (h_heap st') s = Some (slot_put x e cw')).
    { rewrite NF by auto. rewrite X. eapply slot_patch; eauto. }
    assert (AB : forall t, In t (A ++ D) -> nth_error (h_heap st') t = nth_error (h_heap st) t).
    { intros t J. rewrite NF; auto.
      - apply slot_patch_other. intros ->. auto.
      - unfold hlen. eapply (owns_lt _ _ _ _ _ O). rewrite EF. cbn. rewrite !in_app_iff in *. tauto. }
    destruct (R _ _ _ _ Es NC AB (tr_owns _ _ _ _ _ Tw')) as (v' & Ev & Ov).
    exists v', (s :: A ++ Fw' ++ D). split; auto.
    assert (Fr : forall t, (t < hlen st)%nat -> ~ In t F -> nth_error (h_heap st') t = patch l c t (nth_error (h_heap st) t)).
    { intros t Ht Nt. rewrite NF; auto.
      - rewrite slot_patch_other. symmetry. apply patch_same; auto. intros ->. apply Nt. rewrite EF. cbn. auto.
      - intros J. apply Nt. rewrite EF. cbn. rewrite !in_app_iff. auto. }
    assert (FL : forall t, ~ outside l [t] -> nth_error (h_heap st') t = patch l c t (nth_error (h_heap st) t)).
    { intros t Ht. apply Fr. eapply peek_lt; eauto. eapply outside_not; eauto. }
    assert (VV : h_vars st' = patchv l c (h_vars st)).
    { rewrite (patchv_same _ _ _ P), V'. destruct e; reflexivity. }
    assert (Fin : forall t, In t (s :: A ++ Fw' ++ D) -> In t F \/ In t G0 \/ (hlen st <= t)%nat).
    { intros t J. rewrite EF. cbn in J |- *. rewrite !in_app_iff in *. destruct J as [->|[J|[J|J]]]; auto 6.
      destruct (I' _ J) as [|[|]]; auto 6. }
    split; [split; [split|]|].
    + eapply peek_patched; eauto.
    + exact Ov.
    + apply NoDup_mid_back; auto.
      * apply Tw'.
      * intros J. destruct (I' _ J) as [|[J'|]]; auto; try lia. apply (AG s); auto. rewrite EF. cbn. auto.
      * intros t J J'. destruct (I' _ J') as [J2|[J2|J2]].
        -- apply (N3 t); auto.
        -- apply (AG t); auto. rewrite EF. cbn. rewrite !in_app_iff in *. tauto.
        -- assert ((t < hlen st)%nat); [|lia]. unfold hlen. eapply (owns_lt _ _ _ _ _ O). rewrite EF. cbn. rewrite !in_app_iff in *. tauto.
    + assert (forall t, ~ outside l [t] -> ~ In t (s :: A ++ Fw' ++ D)).
      { intros t Ht J. destruct (Fin _ J) as [J'|[J'|J']].
        - exact (outside_not _ _ _ OL Ht J').
        - exact (outside_not _ _ _ OG Ht J').
        - apply (peek_lt _ _ _ _ P) in Ht. lia. }
      destruct l; cbn in *; auto; apply H; cbn; tauto.
    + eapply lsorted_patched; eauto.
    + repeat split; auto.
    + intros t J. rewrite EF. cbn in J |- *. rewrite !in_app_iff in *. destruct J as [<-|[J|[J|J]]]; auto;
        right; (split; [auto|intros J'; apply (N3 t); auto; rewrite in_app_iff; auto]).
Qed.
Lemma descend st l v c F e w : tree st l v c F -> vchild v e = Some w -> exists l' cw Fw,
  (forall ch, get_elem l e ch st = (Ok (Some l'), st)) /\ tree st l' w cw Fw /\ (forall s, In s Fw -> In s F) /\
  (forall G, outside l G -> apart F G -> outside l' G) /\
  forall G st' w', outside l G -> apart F G -> becomes st l' Fw G st' w' ->
    exists v', vset_elem v e w' = Some v' /\ becomes st l F G st' v'.
Proof.
  intros T W. destruct (descend_turns st l v c F e w T W) as (l' & cw & Fw & H1 & H2 & H3 & H4 & H5). exists l', cw, Fw.
  split; [exact H1|]. split; [exact H2|]. split; [exact H3|]. split; [exact H4|]. intros G st' w' OG AG (c1 & F1 & B).
  destruct (H5 G st' w' c1 F1 OG AG B) as (v' & F' & E & Tu & _). exists v'. split; auto. exists c, F'. exact Tu.
Qed.

(** Setting one element of a container in a storage. *)
Lemma list_set_index_ok st s cs i c : nth_error (h_heap st) s = Some (StList cs) -> i < 2^32 - 1 -> exists st',
  list_set_index s i c st = (Ok tt, st') /\ h_vars st' = h_vars st /\ hlen st' = hlen st /\
  forall t, nth_error (h_heap st') t = if Nat.eqb t s then Some (StList (cput cs i c)) else nth_error (h_heap st) t.
Proof.
  intros E Hi. unfold list_set_index. rewrite (bind_get_list _ _ _ _ E). unfold cput. destruct (i <? lsize cs) eqn:L.
  - cbn [bind ret]. unfold list_at. rewrite (bind_ok _ _ _ (LIdx s i) st).
    2:{ rewrite (bind_get_list _ _ _ _ E), L. reflexivity. }
    unfold assign. assert (exists c0, peek st (LIdx s i) = Some c0) as [c0 P].
    { cbn. rewrite E. unfold nthN. destruct (nth_error cs (N.to_nat i)) eqn:G; eauto. apply nth_error_None in G. apply N.ltb_lt in L. unfold lsize in L. lia. }
    destruct (store_ok st _ _ c P) as (st' & -> & V & H & HL). exists st'. repeat split; auto.
    intros t. rewrite H. cbn. destruct (Nat.eqb_spec t s); [subst; rewrite E; reflexivity|]. destruct (nth_error (h_heap st) t) as [[]|]; auto.
  - unfold put_storage at 1. unfold bind at 1. rewrite E. replace (wrap32 (i + 1)) with (i + 1) by (unfold wrap32; rewrite N.mod_small; lia).
    set (st1 := with_heap st (lput (h_heap st) s (StList (lresize cs (i + 1))))).
    assert (E1 : nth_error (h_heap st1) s = Some (StList (lresize cs (i + 1)))).
    { cbn. rewrite nth_lput, Nat.eqb_refl, E. reflexivity. }
    assert (L1 : (i <? lsize (lresize cs (i + 1))) = true).
    { apply N.ltb_lt. unfold lsize. rewrite length_lresize. lia. }
    unfold list_at. rewrite (bind_ok _ _ _ (LIdx s i) st1).
    2:{ rewrite (bind_get_list _ _ _ _ E1), L1. reflexivity. }
    assert (exists c0, peek st1 (LIdx s i) = Some c0) as [c0 P].
    { cbn [peek]. rewrite E1. unfold nthN. destruct (nth_error (lresize cs (i+1)) (N.to_nat i)) eqn:G; eauto.
      apply nth_error_None in G. rewrite length_lresize in G. lia. }
    unfold assign. destruct (store_ok st1 _ _ c P) as (st' & -> & V & H & HL). exists st'. repeat split; auto.
    + rewrite HL. unfold hlen. cbn. apply length_lput.
    + intros t. rewrite H. cbn [patch]. destruct (Nat.eqb_spec t s); [subst; rewrite E1; reflexivity|].
      cbn. rewrite nth_lput. destruct (Nat.eqb_spec t s); [congruence|]. destruct (nth_error (h_heap st) t) as [[]|]; auto.
Qed.
Lemma map_set_key_ok st s m k c : nth_error (h_heap st) s = Some (StMap m) -> exists st',
  map_set_key s k c st = (Ok tt, st') /\ h_vars st' = h_vars st /\ hlen st' = hlen st /\
  forall t, nth_error (h_heap st') t = if Nat.eqb t s then Some (StMap (mset k c m)) else nth_error (h_heap st) t.
Proof.
  intros E. unfold map_set_key, map_insert. unfold bind at 1. rewrite (bind_get_map _ _ _ _ E). destruct (mget k m) eqn:G.
  - cbn [ret]. assert (P : peek st (LKey s k) = Some c0) by (cbn; rewrite E; auto).
    unfold assign. destruct (store_ok st _ _ c P) as (st' & -> & V & H & HL). exists st'. repeat split; auto.
    intros t. rewrite H. cbn. destruct (Nat.eqb_spec t s); [subst; rewrite E; reflexivity|]. destruct (nth_error (h_heap st) t) as [[]|]; auto.
  - unfold put_storage at 1. rewrite E.
    set (st1 := with_heap st (lput (h_heap st) s (StMap (mset k CNull m)))).
    assert (E1 : nth_error (h_heap st1) s = Some (StMap (mset k CNull m))).
    { cbn. rewrite nth_lput, Nat.eqb_refl, E. reflexivity. }
    assert (P : peek st1 (LKey s k) = Some CNull).
    { cbn [peek]. rewrite E1. apply mget_mset_same. }
    unfold assign. destruct (store_ok st1 _ _ c P) as (st' & -> & V & H & HL). exists st'. repeat split; auto.
    + rewrite HL. unfold hlen. cbn. apply length_lput.
    + intros t. rewrite H. cbn [patch]. destruct (Nat.eqb_spec t s); [subst; rewrite E1, mset_mset; reflexivity|].
      cbn. rewrite nth_lput. destruct (Nat.eqb_spec t s); [congruence|]. destruct (nth_error (h_heap st) t) as [[]|]; auto.
Qed.

Definition elem_small (e : pelem) : Prop := match e with PIdx i => i < 2^32 - 1 | PKey _ => True end.
(** A new empty container for an element like [e]. *)
Definition fresh_value (e : pelem) : value := match e with PKey _ => VMap [] | PIdx _ => VList [] end.
Definition fresh_storage (e : pelem) : storage := match e with PKey _ => StMap [] | PIdx _ => StList [] end.
Definition fresh_cell (e : pelem) (s : nat) : cell := match e with PKey _ => CMap s | PIdx _ => CList s end.
Definition put_elem (s : nat) (e : pelem) (c : cell) : M unit :=
  match e with PKey k => map_set_key s k c | PIdx i => list_set_index s i c end.
Lemma put_elem_ok st s e x c : nth_error (h_heap st) s = Some x -> base (fresh_cell e s) e = Some s ->
  (match e, x with PKey _, StMap _ => True | PIdx _, StList _ => True | _, _ => False end) -> elem_small e -> exists st',
  put_elem s e c st = (Ok tt, st') /\ h_vars st' = h_vars st /\ hlen st' = hlen st /\
  forall t, nth_error (h_heap st') t = if Nat.eqb t s then Some (slot_put x e c) else nth_error (h_heap st) t.
Proof.
  intros E _ K S. destruct e as [k|i], x; try tauto; cbn [put_elem slot_put].
  - apply map_set_key_ok, E.
  - apply list_set_index_ok; auto.
Qed.
Lemma set_elem_null st l e c : peek st l = Some CNull ->
  set_elem l e c st = (let* s := alloc (fresh_storage e) in store l (fresh_cell e s);; put_elem s e c) st.
Proof. intros P. destruct e; cbn [set_elem]; [unfold set_key|unfold set_index]; rewrite (bind_load _ _ _ _ P); reflexivity. Qed.
Lemma set_elem_base st l e c c0 s : peek st l = Some c0 -> base c0 e = Some s -> set_elem l e c st = put_elem s e c st.
Proof.
  intros P B. destruct e; cbn [set_elem]; [unfold set_key|unfold set_index]; rewrite (bind_load _ _ _ _ P);
    destruct c0; try discriminate; injection B as ->; reflexivity.
Qed.
Lemma set_elem_bad st l e c c0 : peek st l = Some c0 -> c0 <> CNull -> base c0 e = None ->
  set_elem l e c st = (Throw UnexpectedTypeError, st).
Proof.
  intros P N B. destruct e; cbn [set_elem]; [unfold set_key|unfold set_index]; rewrite (bind_load _ _ _ _ P);
    destruct c0; try discriminate; try congruence; reflexivity.
Qed.

(** Null becomes an empty container. *)
Lemma materialise st l e : tree st l VNull CNull [] -> exists st1 s,
  (let* s := alloc (fresh_storage e) in store l (fresh_cell e s);; ret s) st = (Ok s, st1) /\
  turns st l [] [] st1 (fresh_value e) (fresh_cell e s) [s] /\ nth_error (h_heap st1) s = Some (fresh_storage e).
Proof.
  intros [P _ _ _ LS]. unfold alloc at 1. unfold bind at 1. set (st0 := with_heap st (h_heap st ++ [fresh_storage e])).
  assert (N0 : forall t, (t < hlen st)%nat -> nth_error (h_heap st0) t = nth_error (h_heap st) t).
  { intros t H. cbn. apply nth_error_app1, H. }
  assert (P0 : peek st0 l = Some CNull).
  { destruct l as [x|s i|s k]; cbn [peek] in *; auto; rewrite N0; auto; unfold hlen; apply nth_error_Some; destruct (nth_error (h_heap st) s); congruence. }
  set (n := List.length (h_heap st)). destruct (store_ok st0 l CNull (fresh_cell e n) P0) as (st1 & Es & V & H & HL).
  exists st1, n. rewrite (bind_ok _ _ _ _ _ Es). split; [reflexivity|].
  assert (On : outside l [n]).
  { destruct l as [x|s i|s k]; cbn; auto; intros [J|[]]; subst s; cbn [peek] in P; rewrite (proj2 (nth_error_None (h_heap st) n)) in P; try discriminate; unfold n; lia. }
  assert (En : nth_error (h_heap st1) n = Some (fresh_storage e)).
  { rewrite H, (patch_out _ _ _ _ _ On) by (cbn; auto). cbn. unfold n. rewrite nth_error_app2, Nat.sub_diag by lia. reflexivity. }
  assert (Fr : forall s, (s < hlen st)%nat -> nth_error (h_heap st1) s = patch l (fresh_cell e n) s (nth_error (h_heap st) s)).
  { intros s Hs. rewrite H, N0; auto. }
  split; [|exact En]. split; [split|].
  - eapply peek_patched; [exact P|exact V|]. intros s Hs. apply Fr. eapply peek_lt; eauto.
  - destruct e; cbn in *; [exists [], []|exists [], []]; cbn; auto.
  - repeat constructor. auto.
  - exact On.
  - eapply lsorted_patched; eauto. intros s Hs. apply Fr. eapply peek_lt; eauto.
  - repeat split.
    + intros s [<-|[]]. unfold hlen, n. auto.
    + exact V.
    + intros s Hs _. auto.
    + rewrite HL. unfold hlen. cbn. rewrite app_length. lia.
Qed.

(** Setting an element of a container. *)
Lemma put_elem_turns st l v c F e s x cx G : tree st l v c F -> base c e = Some s -> elem_small e ->
  owns (h_heap st) x cx G -> NoDup G -> apart F G -> outside l G ->
  exists st' v' F', put_elem s e cx st = (Ok tt, st') /\ vset_elem v e x = Some v' /\ turns st l F G st' v' c F' /\
    hlen st' = hlen st /\ forall t, t <> s -> nth_error (h_heap st') t = nth_error (h_heap st) t.
Proof.
  intros [P O ND OL LS] B S Ox NG AG OG.
  destruct (owns_slot _ _ _ _ e s O B) as (y & A & Fw & D & X & EF & K & SX & _ & R).
  rewrite EF in ND. destruct (NoDup_mid _ _ _ _ ND) as (N1 & N2 & N3 & N4 & N5).
  assert (KY : match e, y with PKey _, StMap _ => True | PIdx _, StList _ => True | _, _ => False end).
  { destruct c; try discriminate; destruct e; try discriminate; injection B as ->; destruct v; try (destruct O; fail).
    - apply owns_VList in O. destruct O as (cs & _ & E & _). rewrite X in E. injection E as ->. exact I.
    - apply owns_VMap in O. destruct O as (cs & _ & E & _). rewrite X in E. injection E as ->. exact I. }
  destruct (put_elem_ok st s e y cx X) as (st' & E & V & HL & H); auto. { destruct e; reflexivity. }
  exists st'.
  assert (Hn : forall t, t <> s -> nth_error (h_heap st') t = nth_error (h_heap st) t).
  { intros t N. rewrite H. destruct (Nat.eqb_spec t s); congruence. }
  assert (sF : In s F) by (rewrite EF; cbn; auto).
  destruct (R (h_heap st') x cx G) as (v' & Ev & Ov).
  - rewrite H, Nat.eqb_refl. reflexivity.
  - intros t z Ez C. rewrite Hn; auto. intros ->. rewrite X in Ez. injection Ez as ->. destruct e, z; cbn in *; tauto.
  - intros t J. apply Hn. intros ->. auto.
  - eapply owns_frame; [|intros t J; apply Hn|exact Ox].
    + intros t z Ez C. rewrite Hn; auto. intros ->. rewrite X in Ez. injection Ez as ->. destruct e, z; cbn in *; tauto.
    + intros ->. apply (AG s); auto.
  - exists v', (s :: A ++ G ++ D). split; auto. split; auto. split; [|split; auto].
    assert (Fr : forall t, ~ In t F -> nth_error (h_heap st') t = patch l c t (nth_error (h_heap st) t)).
    { intros t Nt. rewrite Hn by (intros ->; auto). symmetry. apply patch_same; auto. }
    assert (Fin : forall t, In t (s :: A ++ G ++ D) -> In t F \/ In t G \/ (hlen st <= t)%nat).
    { intros t J. rewrite EF. cbn in J |- *. rewrite !in_app_iff in *. tauto. }
    split; [split|].
    + eapply peek_patched; [exact P| |].
      * rewrite V. symmetry. apply patchv_same, P.
      * intros t Ht. apply Fr. eapply outside_not; eauto.
    + exact Ov.
    + apply NoDup_mid_back; auto. intros t J. apply AG. rewrite EF. cbn. rewrite !in_app_iff in *. tauto.
    + assert (forall t, ~ outside l [t] -> ~ In t (s :: A ++ G ++ D)).
      { intros t Ht J. destruct (Fin _ J) as [J'|[J'|J']].
        - exact (outside_not _ _ _ OL Ht J').
        - exact (outside_not _ _ _ OG Ht J').
        - apply (peek_lt _ _ _ _ P) in Ht. lia. }
      destruct l; cbn in *; auto; apply H0; cbn; tauto.
    + eapply lsorted_patched; eauto. intros t Ht. apply Fr. eapply outside_not; eauto.
    + repeat split; auto.
      * rewrite V. symmetry. apply patchv_same, P.
      * lia.
Qed.

Lemma tree_null st l c F : tree st l VNull c F -> c = CNull /\ F = [].
Proof. intros [P O ND OL LS]. destruct c; cbn in O; try tauto. Qed.
Lemma tree_cnull st l v F : tree st l v CNull F -> v = VNull /\ F = [].
Proof. intros [P O ND OL LS]. destruct v; cbn in O; tauto. Qed.
Lemma outside_app l F G : outside l F -> outside l G -> outside l (F ++ G).
Proof. destruct l; cbn; auto; rewrite in_app_iff; tauto. Qed.
Lemma fresh_base e s : base (fresh_cell e s) e = Some s. Proof. destruct e; reflexivity. Qed.
Lemma bind_assoc {A B C} (m : M A) (f : A -> M B) (g : B -> M C) st : bind (bind m f) g st = bind m (fun x => bind (f x) g) st.
Proof. unfold bind. destruct (m st) as [[]]; reflexivity. Qed.
Lemma vset_elem_fresh e x : vset_elem (fresh_value e) e x = vset_elem VNull e x.
Proof. destruct e; reflexivity. Qed.

Lemma set_elem_null_two st l e c st1 s : peek st l = Some CNull ->
  (let* s := alloc (fresh_storage e) in store l (fresh_cell e s);; ret s) st = (Ok s, st1) ->
  set_elem l e c st = put_elem s e c st1.
Proof.
  intros P E. rewrite (set_elem_null _ _ _ _ P). unfold alloc, bind in *.
  destruct (store l (fresh_cell e (List.length (h_heap st))) (with_heap st (h_heap st ++ [fresh_storage e]))) as [[[]| | | |] st2]; try discriminate.
  cbn in E. injection E as <- <-. reflexivity.
Qed.

(** SetPathElem on a tree. *)
Lemma set_elem_tree st l v c F e x cx G : tree st l v c F -> elem_small e ->
  owns (h_heap st) x cx G -> NoDup G -> apart F G -> outside l G ->
  match vset_elem v e x with
  | Some v' => exists st', set_elem l e cx st = (Ok tt, st') /\ becomes st l F G st' v'
  | None => set_elem l e cx st = (Throw UnexpectedTypeError, st)
  end.
Proof.
  intros T S Ox NG AG OG. destruct (base c e) as [s|] eqn:B.
  - destruct (put_elem_turns st l v c F e s x cx G T B S Ox NG AG OG) as (st' & v' & F' & E & -> & Tu & _).
    exists st'. rewrite (set_elem_base _ _ _ _ _ _ (tr_peek _ _ _ _ _ T) B). split; auto. exists c, F'. auto.
  - destruct v.
    1: { destruct (tree_null _ _ _ _ T) as [-> ->]. destruct (materialise st l e T) as (st1 & s & E1 & T1 & X1).
      assert (Ox1 : owns (h_heap st1) x cx G).
      { eapply becomes_keep; [exact T|exists (fresh_cell e s), [s]; exact T1|exact Ox|auto|exact OG]. }
      assert (Tt := T1). destruct T1 as (Tr1 & I1 & V1 & N1 & L1).
      destruct (put_elem_turns st1 l _ _ _ e s x cx G Tr1 (fresh_base _ _) S Ox1 NG) as (st' & v' & F' & E & Ev & Tu & _); auto.
      { intros t [<-|[]] J. destruct (I1 s (or_introl eq_refl)) as [[]|[[]|J']]. assert (Hs := owns_lt _ _ _ _ _ Ox J). unfold hlen in J'. lia. }
      rewrite vset_elem_fresh in Ev. rewrite Ev. exists st'. rewrite (set_elem_null_two _ _ _ _ _ _ (tr_peek _ _ _ _ _ T) E1). split; auto.
      exists (fresh_cell e s), F'. eapply turns_trans; [exact Tt|exact Tu]. }
    all: assert (NN : c <> CNull) by (intros ->; destruct T as [_ O _ _ _]; destruct O).
    all: rewrite (set_elem_bad _ _ _ _ _ (tr_peek _ _ _ _ _ T) NN B).
    all: destruct e, c; try discriminate; try reflexivity; destruct (tr_owns _ _ _ _ _ T).
Qed.

Definition path_small (p : path) : Prop := Forall elem_small p.

Lemma vset_elem_child_same v e x v' : vsorted v -> vset_elem v e x = Some v' -> vchild v' e = Some x.
Proof. intros K E. apply (vset_elem_child v e x v' e K E). reflexivity. Qed.
Lemma vset_elem_twice v e x y v1 : vset_elem v e x = Some v1 -> vset_elem v1 e y = vset_elem v e y.
Proof.
  destruct e as [k|i], v; try discriminate; intros E; injection E as <-; cbn [vset_elem mset]; rewrite ?bcmp_refl, ?mset_mset; auto.
  - f_equal. f_equal. generalize (N.to_nat i). induction n; cbn; congruence.
  - f_equal. f_equal. generalize (N.to_nat i). induction l as [|z l IH]; intros [|n]; cbn; auto.
    + clear. f_equal. induction n; cbn; congruence.
    + rewrite IH. reflexivity.
Qed.

(** SetPath on a tree: exactly [vset], or an exception and nothing changed. *)
Lemma set_path_tree p : forall st l v c F x cx G, tree st l v c F -> path_small p ->
  owns (h_heap st) x cx G -> NoDup G -> apart F G -> outside l G ->
  match vset v p x with
  | Some v' => exists st', set_path p l cx st = (Ok tt, st') /\ becomes st l F G st' v'
  | None => set_path p l cx st = (Throw UnexpectedTypeError, st)
  end.
Proof.
  induction p as [|e p IH]; intros st l v c F x cx G T S Ox NG AG OG.
  - cbn [vset set_path]. unfold assign. destruct T as [P O ND OL LS]. destruct (store_ok st l c cx P) as (st' & E & V & H & HL).
    exists st'. split; auto. exists cx, G. split; [split|].
    + eapply peek_patched; eauto.
    + eapply owns_frame; [| |exact Ox].
      * intros s y Ey C. rewrite H, Ey. apply patch_keep, C.
      * intros s J. rewrite H. eapply patch_out; eauto.
    + auto.
    + auto.
    + eapply lsorted_patched; eauto.
    + repeat split; auto. lia.
  - inversion S as [|? ? S1 S2]; subst. cbn [vset set_path].
    destruct (vchild v e) as [w|] eqn:W.
    + destruct (descend st l v c F e w T W) as (l' & cw & Fw & Eg & Tw & Inc & OG' & Up).
      assert (Hr : forall A (k : option loc -> M A), (let* o := get_elem l e false in k o) st = k (Some l') st) by (intros; apply bind_ok, Eg).
      rewrite Hr. assert (AW : apart Fw G) by (intros s J; apply AG; auto).
      specialize (IH st l' w cw Fw x cx G Tw S2 Ox NG AW (OG' G OG AG)).
      destruct (vset w p x) as [w'|].
      * destruct IH as (st' & E & Bc). destruct (Up G st' w' OG AG Bc) as (v' & -> & Bv). exists st'. auto.
      * exact IH.
    + assert (Eg := get_elem_none _ _ _ _ _ _ (tr_peek _ _ _ _ _ T) (tr_owns _ _ _ _ _ T) W).
      assert (Hr : forall A (k : option loc -> M A), (let* o := get_elem l e false in k o) st = k None st) by (intros; apply bind_ok, Eg).
      rewrite Hr. destruct p as [|e2 p].
      * cbn [vset]. eapply set_elem_tree; eauto.
      * destruct (vset VNull (e2 :: p) x) as [w'|] eqn:Ew; [|destruct (vset_null _ _ Ew)].
        assert (ON : owns (h_heap st) VNull CNull []) by reflexivity.
        assert (A0 : apart F []) by (intros s _ []).
        assert (O0 : outside l []) by (destruct l; cbn; auto).
        assert (H := set_elem_tree st l v c F e VNull CNull [] T S1 ON (NoDup_nil _) A0 O0).
        destruct (vset_elem v e VNull) as [v1|] eqn:E1.
        -- destruct H as (st1 & Es & c1 & F1 & Tu). rewrite (bind_ok _ _ _ _ _ Es).
           assert (T1 := Tu). destruct T1 as (T1 & I1 & V1 & N1 & L1).
           assert (C1 := vset_elem_child_same _ _ _ _ (owns_sorted _ _ _ _ (tr_owns _ _ _ _ _ T)) E1).
           destruct (descend st1 l v1 c1 F1 e VNull T1 C1) as (l' & cw & Fw & Eg1 & Tw & Inc & OG' & Up).
           rewrite (bind_ok _ _ _ _ _ (Eg1 false)).
           assert (Ox1 : owns (h_heap st1) x cx G).
           { eapply becomes_keep; [exact T|exists c1, F1; exact Tu|exact Ox|intros s J J'; apply (AG s); auto|exact OG]. }
           assert (AG1 : apart F1 G).
           { intros s J J'. destruct (I1 _ J) as [K|[[]|K]]; [apply (AG s); auto|]. assert (Hs := owns_lt _ _ _ _ _ Ox J'). unfold hlen in K. lia. }
           assert (AW : apart Fw G) by (intros s J; apply AG1; auto).
           specialize (IH st1 l' VNull cw Fw x cx G Tw S2 Ox1 NG AW (OG' G OG AG1)). rewrite Ew in IH.
           destruct IH as (st' & E & Bc). destruct (Up G st' w' OG AG1 Bc) as (v' & Ev & (c2 & F2 & Tu2)).
           rewrite (vset_elem_twice _ _ _ _ _ E1) in Ev. rewrite Ev. exists st'. split; auto. exists c2, F2. eapply turns_trans; eauto.
        -- destruct (vset_elem v e w') eqn:E2.
           ++ destruct e, v; discriminate.
           ++ apply bind_throw, H.
Qed.
