(** What can be observed of a Variant in the heap model, stated without the model's own
    functions: the cell reached by following keys and indices, and what it shows. *)
From Verif Require Import Base Float Value Blob Path Numeric Heap HeapProofs.
Open Scope N_scope.

(** The element of a cell under one key or index: the contents of the storages that
    src/Variant.cc:117-155 describe. *)
Definition child (st : hstate) (c : cell) (e : pelem) : option cell :=
  match c, e with
  | CMap s, PKey k => match nth_error (h_heap st) s with Some (StMap m) => mget k m | _ => None end
  | CList s, PIdx i => match nth_error (h_heap st) s with Some (StList l) => nth_error l (N.to_nat i) | _ => None end
  | _, _ => None
  end.
Fixpoint cell_at (st : hstate) (c : cell) (p : path) : option cell :=
  match p with
  | [] => Some c
  | e :: q => match child st c e with Some c' => cell_at st c' q | None => None end
  end.

(** What a Variant shows without looking into its elements: type, value, string, number of
    elements, keys, buffers. *)
Inductive shape :=
| ShNull | ShBool (b : bool) | ShInt (z : Z) | ShUns (n : N) | ShFlt (x : spec_float)
| ShStr (b : bytes) | ShList (n : nat) | ShMap (ks : list bytes) | ShBlob (b : option blob) | ShBad.
Definition shape_of (st : hstate) (c : cell) : shape :=
  match c with
  | CNull => ShNull | CBool b => ShBool b | CInt z => ShInt z | CUns n => ShUns n | CFlt x => ShFlt x
  | CStr s => match nth_error (h_heap st) s with Some (StStr b) => ShStr b | _ => ShBad end
  | CList s => match nth_error (h_heap st) s with Some (StList l) => ShList (List.length l) | _ => ShBad end
  | CMap s => match nth_error (h_heap st) s with Some (StMap m) => ShMap (List.map fst m) | _ => ShBad end
  | CBlob None => ShBlob None
  | CBlob (Some s) => match nth_error (h_heap st) s with Some (StBlob b) => ShBlob (Some b) | _ => ShBad end
  end.

(** What is seen through variable [x] at path [p]; [None] when there is nothing. *)
Definition see (st : hstate) (x : nat) (p : path) : option shape :=
  match nth_error (h_vars st) x with
  | Some c => match cell_at st c p with Some d => Some (shape_of st d) | None => None end
  | None => None
  end.

(** A state a program can be in: every storage a cell holds exists and is of its kind, and
    maps are in order. *)
Definition wf (st : hstate) : Prop := closed (fun s => (s < hlen st)%nat) (fun _ => True) st.

(** An operation mentioning only variables in [V] ([op_in]) is on that side. *)
Definition only (z : nat) : nat -> Prop := fun x => x = z.
Definition but (z : nat) : nat -> Prop := fun x => x <> z.

(** A cell read as a tree.  A blob handle without a Blob reads as the blob without buffers;
    of a cyclic structure nothing is read. *)
Fixpoint reads (h : list storage) (v : value) (c : cell) : Prop :=
  match v, c with
  | VNull, CNull => True
  | VBool b, CBool b' => b = b'
  | VInt z, CInt z' => z = z'
  | VUns n, CUns n' => n = n'
  | VFlt x, CFlt x' => x = x'
  | VStr b, CStr s => nth_error h s = Some (StStr b)
  | VBlob b, CBlob o => match o with Some s => nth_error h s = Some (StBlob b) | None => b = [] end
  | VList vs, CList s =>
      exists cs, nth_error h s = Some (StList cs) /\
        (fix go vs cs := match vs, cs with
                         | [], [] => True
                         | v :: vs, c :: cs => reads h v c /\ go vs cs
                         | _, _ => False
                         end) vs cs
  | VMap vm, CMap s =>
      exists cm, nth_error h s = Some (StMap cm) /\
        (fix go vm cm := match vm, cm with
                         | [], [] => True
                         | kv :: vm, kc :: cm => fst kv = fst kc /\ reads h (snd kv) (snd kc) /\ go vm cm
                         | _, _ => False
                         end) vm cm
  | _, _ => False
  end.
Fixpoint reads_list (h : list storage) (vs : list value) (cs : list cell) : Prop :=
  match vs, cs with
  | [], [] => True
  | v :: vs, c :: cs => reads h v c /\ reads_list h vs cs
  | _, _ => False
  end.
Fixpoint reads_map (h : list storage) (vm : list (bytes * value)) (cm : list (bytes * cell)) : Prop :=
  match vm, cm with
  | [], [] => True
  | kv :: vm, kc :: cm => fst kv = fst kc /\ reads h (snd kv) (snd kc) /\ reads_map h vm cm
  | _, _ => False
  end.
Lemma reads_VList h vs s : reads h (VList vs) (CList s) <-> exists cs, nth_error h s = Some (StList cs) /\ reads_list h vs cs.
Proof.
  cbn [reads]; split; intros (cs & E & H); exists cs; (split; [exact E|]); clear E; revert cs H;
    induction vs as [|v vs IH]; intros [|c cs] H; cbn [reads_list] in *; auto; destruct H; split; auto; apply IH; auto.
Qed.
Lemma reads_VMap h vm s : reads h (VMap vm) (CMap s) <-> exists cm, nth_error h s = Some (StMap cm) /\ reads_map h vm cm.
Proof.
  cbn [reads]; split; intros (cs & E & H); exists cs; (split; [exact E|]); clear E; revert cs H;
    induction vm as [|v vs IH]; intros [|c cs] H; cbn [reads_map] in *; auto; destruct H as (? & ? & ?); repeat split; auto; apply IH; auto.
Qed.

(** ** Executable version of [wf], for examples *)
Definition kind_eqb (a b : kind) : bool :=
  match a, b with KSStr, KSStr | KSList, KSList | KSMap, KSMap | KSBlob, KSBlob => true | _, _ => false end.
Definition holds (st : hstate) (s : nat) (k : kind) : bool :=
  match nth_error (h_heap st) s with Some x => kind_eqb (kind_of x) k | None => false end.
Definition cell_okb (st : hstate) (c : cell) : bool :=
  match c with
  | CStr s => holds st s KSStr | CList s => holds st s KSList | CMap s => holds st s KSMap
  | CBlob (Some s) => holds st s KSBlob | _ => true
  end.
Fixpoint sortedb {A} (m : list (bytes * A)) : bool :=
  match m with
  | [] => true
  | (k, _) :: t => forallb (fun kv => match bcmp k (fst kv) with Lt => true | _ => false end) t && sortedb t
  end.
Definition wfb (st : hstate) : bool :=
  forallb (cell_okb st) (h_vars st) &&
  forallb (fun x => forallb (cell_okb st) (cells_of x) && match x with StMap m => sortedb m | _ => true end) (h_heap st).

Lemma sortedb_sound {A} (m : list (bytes * A)) : sortedb m = true -> msorted m.
Proof.
  induction m as [|[k v] m IH]; cbn; auto. rewrite andb_true_iff, forallb_forall. intros [H1 H2]. split; auto.
  intros k' I. unfold mkeys in I. apply in_map_iff in I. destruct I as (kv & <- & I). specialize (H1 _ I).
  destruct (bcmp k (fst kv)); congruence.
Qed.
Lemma cell_okb_sound st c : cell_okb st c = true -> inside (fun s => (s < hlen st)%nat) st c.
Proof.
  assert (H : forall s k, holds st s k = true -> (s < hlen st)%nat /\ kind_at st s k).
  { intros s k. unfold holds. destruct (nth_error (h_heap st) s) eqn:E; [|discriminate]. intros K. split.
    unfold hlen. apply nth_error_Some. congruence. exists s0. split; auto. destruct (kind_of s0), k; try discriminate; reflexivity. }
  destruct c; cbn; auto. destruct s; auto.
Qed.
Lemma wfb_sound st : wfb st = true -> wf st.
Proof.
  unfold wfb. rewrite andb_true_iff, !forallb_forall. intros [A B]. split.
  - intros x c _ E. apply cell_okb_sound, A. apply (nth_error_In _ _ E).
  - intros s x c _ E I. apply nth_error_In in E. specialize (B _ E). rewrite andb_true_iff, forallb_forall in B.
    apply cell_okb_sound, B, I.
  - intros s x _ E. apply nth_error_In in E. specialize (B _ E). apply andb_true_iff in B. destruct B as [_ B].
    destruct x; cbn; auto. apply sortedb_sound, B.
  - auto.
Qed.

(** ** Lookups do not change the state *)
Ltac pur := repeat first [apply pure_bind; [|intros ?] | apply pure_load | apply pure_get_storage | apply pure_ret
  | apply pure_fail | apply pure_get_list | apply pure_get_map | apply pure_get_str | apply pure_get_blob
  | match goal with |- pure_m (match ?x with _ => _ end) => destruct x end].
Lemma pure_get_elem l e ch : pure_m (get_elem l e ch).
Proof. unfold get_elem, get_key, get_index, throw. pur. Qed.
Lemma pure_get_path p : forall l ch, pure_m (get_path p l ch).
Proof.
  induction p as [|e p IH]; intros l ch; cbn [get_path]; [pur|].
  apply pure_bind; [apply pure_get_elem|]. intros [l'|]; [destruct p; [pur|apply IH]|unfold throw; pur].
Qed.
Lemma pure_get_ref_elem l e : pure_m (get_ref_elem l e None).
Proof. destruct e; cbn [get_ref_elem]; unfold get_ref_key, map_get_ref, get_ref_index, list_get_ref, throw; pur. Qed.
Lemma pure_get_path_ref p : forall l, pure_m (get_path_ref p l None).
Proof.
  induction p as [|e p IH]; intros l; cbn [get_path_ref]; [pur|].
  apply pure_bind; [apply pure_get_elem|]. intros [l'|]; [destruct p; [pur|apply IH]|pur].
Qed.
Lemma pure_resolve_check r : pure_m (resolve_check r).
Proof. destruct r; cbn [resolve_check]; [pur|apply pure_get_path]. Qed.
Lemma pure_resolve_throw r : pure_m (resolve_throw r).
Proof. destruct r; cbn [resolve_throw]; [pur|]. apply pure_bind; [apply pure_get_path|intros [|]; unfold throw; pur]. Qed.
Lemma pure_at_elem r e : pure_m (at_elem r e).
Proof. unfold at_elem. apply pure_bind; [apply pure_resolve_check|]. intros [l|]; [apply pure_get_ref_elem|pur]. Qed.
Lemma pure_at_path r p : pure_m (at_path r p).
Proof. unfold at_path. destruct p; [pur|]. apply pure_bind; [apply pure_resolve_check|]. intros [l|]; [apply pure_get_path_ref|pur]. Qed.
Lemma pure_eval_lval v : pure_m (eval_lval v).
Proof. apply pure_at_path. Qed.
Lemma pure_read_lval v : pure_m (read_lval v).
Proof. unfold read_lval. apply pure_bind; [apply pure_eval_lval|]. intros r. apply pure_bind; [apply pure_resolve_throw|]. intros; pur. Qed.

Lemma pure_exists_ref r : pure_m (exists_ref r).
Proof. unfold exists_ref. apply pure_bind; [apply pure_resolve_check|intros; pur]. Qed.
Lemma pure_contains r e : pure_m (contains r e).
Proof. unfold contains. apply pure_bind; [apply pure_resolve_throw|]. intros l. pur. Qed.
Lemma pure_get r e : pure_m (get r e).
Proof. unfold get. apply pure_bind; [apply pure_resolve_throw|]. intros l. apply pure_bind; [apply pure_get_elem|]. intros; pur. Qed.
Lemma pure_get_def r e d : pure_m (get_def r e d).
Proof. unfold get_def. apply pure_bind; [apply pure_resolve_throw|]. intros l. apply pure_bind; [apply pure_get_elem|]. intros; pur. Qed.
Lemma pure_has_path l p : pure_m (has_path l p).
Proof. unfold has_path. apply pure_bind; [apply pure_get_path|]. intros; pur. Qed.
Lemma pure_get_at_path l p : pure_m (get_at_path l p).
Proof. unfold get_at_path. apply pure_bind; [apply pure_get_path|]. intros; pur. Qed.
Lemma pure_get_at_path_def l p d : pure_m (get_at_path_def l p d).
Proof. unfold get_at_path_def. apply pure_bind; [apply pure_get_path|]. intros; pur. Qed.

(** ** What lookups find *)
Lemma wf_peek st l c : wf st -> peek st l = Some c -> inside (fun s => (s < hlen st)%nat) st c.
Proof.
  intros W P. destruct l as [x|s i|s k]; cbn in P.
  - apply (cl_vars _ _ _ W _ _ I P).
  - destruct (nth_error (h_heap st) s) as [[b|cs|m|b]|] eqn:H; try discriminate.
    apply (cl_heap _ _ _ W s _ _ ltac:(unfold hlen; apply nth_error_Some; congruence) H). apply (nth_error_In _ _ P).
  - destruct (nth_error (h_heap st) s) as [[b|cs|m|b]|] eqn:H; try discriminate.
    apply (cl_heap _ _ _ W s _ _ ltac:(unfold hlen; apply nth_error_Some; congruence) H). cbn. apply mget_In in P. apply (in_map snd) in P. exact P.
Qed.

Definition missing (st : hstate) (A : Type) (ch : bool) (r : res (option A) * hstate) : Prop :=
  if ch then exists ex, r = (Throw ex, st) /\ (ex = KeyError \/ ex = OutOfRange \/ ex = UnexpectedTypeError)
  else r = (Ok None, st).

Lemma bind_load {B} (f : cell -> M B) st l c : peek st l = Some c -> bind (load l) f st = f c st.
Proof. unfold bind, load. intros ->. reflexivity. Qed.
Lemma bind_get_list {B} (f : list cell -> M B) st s l : nth_error (h_heap st) s = Some (StList l) -> bind (get_list s) f st = f l st.
Proof. unfold bind, get_list, get_storage, bind. intros ->. reflexivity. Qed.
Lemma bind_get_map {B} (f : list (bytes * cell) -> M B) st s m : nth_error (h_heap st) s = Some (StMap m) -> bind (get_map s) f st = f m st.
Proof. unfold bind, get_map, get_storage, bind. intros ->. reflexivity. Qed.
Lemma bind_get_str {B} (f : bytes -> M B) st s b : nth_error (h_heap st) s = Some (StStr b) -> bind (get_str s) f st = f b st.
Proof. unfold bind, get_str, get_storage, bind. intros ->. reflexivity. Qed.
Lemma bind_ok {A B} (m : M A) (f : A -> M B) st a st1 : m st = (Ok a, st1) -> bind m f st = f a st1.
Proof. unfold bind. intros ->. reflexivity. Qed.
Lemma bind_throw {A B} (m : M A) (f : A -> M B) st e st1 : m st = (Throw e, st1) -> bind m f st = (Throw e, st1).
Proof. unfold bind. intros ->. reflexivity. Qed.

Lemma get_elem_spec st l c e ch : wf st -> peek st l = Some c ->
  match child st c e with
  | Some d => exists l', get_elem l e ch st = (Ok (Some l'), st) /\ peek st l' = Some d
  | None => missing st loc ch (get_elem l e ch st)
  end.
Proof.
  intros W P. pose proof (wf_peek _ _ _ W P) as I. unfold missing.
  destruct e as [k|i]; cbn [get_elem]; [unfold get_key|unfold get_index]; rewrite !(bind_load _ _ _ _ P);
    destruct c as [| | | | |s|s|s|s]; cbn [child]; try (destruct ch; [eexists; split; [reflexivity|auto]|reflexivity]).
  - destruct I as [_ (x & E & K)]. destruct x; try discriminate. rewrite !(bind_get_map _ _ _ _ E), E.
    destruct (mget k m) as [d|] eqn:G.
    + exists (LKey s k). split; auto. cbn. rewrite E. exact G.
    + destruct ch; [eexists; split; [reflexivity|auto]|reflexivity].
  - destruct I as [_ (x & E & K)]. destruct x; try discriminate. rewrite !(bind_get_list _ _ _ _ E), E.
    unfold lsize. destruct (nth_error l0 (N.to_nat i)) as [d|] eqn:G.
    + assert (N.to_nat i < List.length l0)%nat by (apply nth_error_Some; congruence).
      destruct (N.ltb_spec i (N.of_nat (List.length l0))); [|lia]. exists (LIdx s i). split; auto. cbn. rewrite E. exact G.
    + apply nth_error_None in G. destruct (N.ltb_spec i (N.of_nat (List.length l0))); [lia|]. destruct ch; [eexists; split; [reflexivity|auto]|reflexivity].
Qed.

Lemma get_path_spec p : forall st l c ch, wf st -> peek st l = Some c ->
  match cell_at st c p with
  | Some d => exists l', get_path p l ch st = (Ok (Some l'), st) /\ peek st l' = Some d
  | None => missing st loc ch (get_path p l ch st)
  end.
Proof.
  induction p as [|e p IH]; intros st l c ch W P; cbn [cell_at get_path].
  - unfold bind, load. rewrite P. exists l. auto.
  - pose proof (get_elem_spec st l c e ch W P) as G. destruct (child st c e) as [d|].
    + destruct G as (l' & G & P'). unfold bind at 1. unfold missing. unfold bind. rewrite G. destruct p as [|e' p].
      * cbn. exists l'. auto.
      * apply (IH st l' d ch W P').
    + unfold missing, bind in *. destruct ch.
      * destruct G as (ex & -> & K). eauto.
      * rewrite G. reflexivity.
Qed.
