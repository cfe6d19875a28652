(** The schema loader on schemas that are trees. *)
From Verif Require Import Base Float Value Blob Path Numeric Heap HeapProofs HeapSpec SharingProofs ValueOps HeapTree HeapErase HeapTreeFacts
  Uri P_Uri Pointer PointerWalk PointerSem PointerText P_Pointer ExtValue Schema SchemaLoad SchemaLoadFrame SchemaNorm SchemaLoadTree.
Open Scope N_scope.

(** ** What a cell reads as *)
Lemma map_m_ok {A B} (f : A -> M B) st l l' : Forall2 (fun a b => f a st = (Ok b, st)) l l' -> map_m f l st = (Ok l', st).
Proof. induction 1 as [|a b l l' H _ IH]; cbn [map_m]; [reflexivity|]. rewrite (bind_ok _ _ _ _ _ H), (bind_ok _ _ _ _ _ IH). reflexivity. Qed.
Lemma read_out_reads n : forall st v c, reads (h_heap st) v c -> (vdepth v <= n)%nat -> read_out n c st = (Ok v, st).
Proof.
  induction n as [|n IH]; intros st v c R D; [assert (H := vdepth_pos v); lia|]. cbn [read_out].
  destruct v as [| | | | | |l|m|]; destruct c; cbn [reads] in R; try tauto; subst; try reflexivity.
  - rewrite (bind_get_str _ _ _ _ R). reflexivity.
  - change (reads (h_heap st) (VList l) (CList s)) in R. apply reads_VList in R. destruct R as (cs & E & R). rewrite (bind_get_list _ _ _ _ E).
    rewrite vdepth_VList in D. assert (H : Forall2 (fun a b => read_out n a st = (Ok b, st)) cs l).
    { clear E. revert cs R D. induction l as [|v l IHl]; intros [|c cs]; cbn [reads_list]; try tauto; intros R D; [apply Forall2_nil|].
      destruct R as [A B]. cbn [vdepths] in D. apply Forall2_cons; [apply IH; [exact A|lia]|apply IHl; [exact B|lia]]. }
    rewrite (bind_ok _ _ _ _ _ (map_m_ok _ _ _ _ H)). reflexivity.
  - change (reads (h_heap st) (VMap m) (CMap s)) in R. apply reads_VMap in R. destruct R as (cs & E & R). rewrite (bind_get_map _ _ _ _ E).
    rewrite vdepth_VMap in D. assert (H : Forall2 (fun a b => (let* v := read_out n (snd a) in ret (fst a, v)) st = (Ok b, st)) cs m).
    { clear E. revert cs R D. induction m as [|[k v] m IHl]; intros [|[k' c] cs]; cbn [reads_map]; try tauto; intros R D; [apply Forall2_nil|].
      destruct R as (K & A & B). cbn [fst snd List.map vdepths] in *. subst k'. apply Forall2_cons; [rewrite (bind_ok _ _ _ _ _ (IH st v c A ltac:(lia))); reflexivity|apply IHl; [exact B|lia]]. }
    rewrite (bind_ok _ _ _ _ _ (map_m_ok _ _ _ _ H)). reflexivity.
  - destruct s as [s|]; [unfold get_blob, get_storage, bind; rewrite R; reflexivity|subst; reflexivity].
Qed.

(** ** Normalising through a Variant of the function *)
Lemma local_tree st v c F : owns (h_heap st) v c F -> NoDup F ->
  tree (HState (h_vars st ++ [c]) (h_heap st)) (LVar (List.length (h_vars st))) v c F.
Proof. intros O N. split; cbn; auto. apply nth_last. Qed.
Lemma owns_kept h v c F s x : owns h v c F -> nth_error h s = Some x -> ~ container x -> ~ In s F.
Proof. intros O E N I. destruct (owns_In _ _ _ _ _ O I) as (y & Ey & Cy). rewrite E in Ey. injection Ey as <-. contradiction. Qed.
Lemma local_norm_tree st v c F fuel uri : owns (h_heap st) v c F -> NoDup F -> (vdepth v <= fuel)%nat ->
  exists st' F', with_local c (fun l => norm_schema fuel l uri) st = (Ok tt, st') /\ owns (h_heap st') (vnorm uri v) c F' /\ NoDup F' /\
    (forall s, In s F' -> In s F \/ (hlen st <= s)%nat) /\ h_vars st' = h_vars st /\
    (forall s, (s < hlen st)%nat -> ~ In s F -> nth_error (h_heap st') s = nth_error (h_heap st) s).
Proof.
  intros O N D. destruct (norm_tree fuel _ _ _ _ _ uri (local_tree st v c F O N) D) as (st' & F' & E & T & I & V & H & L).
  exists (HState (firstn (List.length (h_vars st)) (h_vars st')) (h_heap st')), F'. unfold with_local. rewrite E. cbn [h_vars h_heap].
  cbn [patchv h_vars] in V. rewrite lput_last in V. rewrite V, firstn_last. cbn [h_heap] in H. unfold hlen in H, I, L. cbn [h_heap] in H, I, L.
  split; [reflexivity|]. split; [apply (tr_owns _ _ _ _ _ T)|]. split; [apply (tr_nodup _ _ _ _ _ T)|].
  split; [intros s Hs; destruct (I s Hs) as [|[[]|]]; auto|]. split; [reflexivity|]. intros s Ls Ns. rewrite (H s Ls Ns). reflexivity.
Qed.

(** ** Searching *)
(** The first object, from the top down and in the order of the keys, whose "id" is [k]; not in lists
    and not in "enum". *)
Fixpoint vsearch (k : bytes) (v : value) {struct v} : option value :=
  match v with
  | VMap m =>
      if match text_in k_id m with Some t => beqb t k | None => false end then Some v
      else (fix go (m : list (bytes * value)) : option value :=
              match m with
              | [] => None
              | (k', w) :: m' => match (if not_enum k' then vsearch k w else None) with Some r => Some r | None => go m' end
              end) m
  | _ => None
  end.
Fixpoint vsearch_in (k : bytes) (m : list (bytes * value)) : option value :=
  match m with
  | [] => None
  | (k', w) :: m' => match (if not_enum k' then vsearch k w else None) with Some r => Some r | None => vsearch_in k m' end
  end.
Lemma vsearch_VMap k m : vsearch k (VMap m) = if match text_in k_id m with Some t => beqb t k | None => false end then Some (VMap m) else vsearch_in k m.
Proof.
  cbn [vsearch]. destruct (match text_in k_id m with Some t => beqb t k | None => false end); auto.
  induction m as [|[k' w] m IH]; cbn [vsearch_in]; auto. rewrite IH. reflexivity.
Qed.

Definition adds (h : list storage) (F : list nat) (o : option value) (x x' : option cell) : Prop :=
  match x, o with
  | Some c, _ => x' = Some c
  | None, Some w => exists c F', x' = Some c /\ owns h w c F' /\ NoDup F' /\ incl F' F
  | None, None => x' = None
  end.
Lemma adds_trans h F1 F2 F o1 o2 x0 x1 x2 : incl F1 F -> incl F2 F -> adds h F1 o1 x0 x1 -> adds h F2 o2 x1 x2 ->
  adds h F (match o1 with Some r => Some r | None => o2 end) x0 x2.
Proof.
  intros I1 I2. unfold adds. destruct x0 as [c|]; [intros -> ->; reflexivity|]. destruct o1 as [w|].
  - intros (c & F' & -> & O & N & I) ->. exists c, F'. split; [reflexivity|]. split; [exact O|]. split; [exact N|]. intros s Hs. auto.
  - intros ->. destruct o2 as [w|]; auto. intros (c & F' & -> & O & N & I). exists c, F'. split; [reflexivity|]. split; [exact O|]. split; [exact N|]. intros s Hs. auto.
Qed.
Lemma adds_none h F x : adds h F None x x.
Proof. destruct x; reflexivity. Qed.

Lemma text_at_owns st m s F k : owns (h_heap st) (VMap m) (CMap s) F -> text_at s k st = (Ok (text_in k m), st).
Proof.
  intros O. unfold text_at, text_in. destruct (mget k m) as [w|] eqn:G.
  - destruct (owns_map_get _ _ _ _ _ _ O G) as (cm & c & f & E & Gc & Ow). rewrite (bind_get_map _ _ _ _ E), Gc.
    destruct w, c; cbn [owns] in Ow; try tauto; try reflexivity. destruct Ow as [Es _]. rewrite (bind_get_str _ _ _ _ Es). reflexivity.
  - destruct (owns_map_none _ _ _ _ _ O G) as (cm & E & Gc). rewrite (bind_get_map _ _ _ _ E), Gc. reflexivity.
Qed.
Definition only (b : bool) (o : option value) : option value := if b then o else None.
Lemma nodup_app_l {A} (l l' : list A) : NoDup (l ++ l') -> NoDup l.
Proof. intros N. induction l as [|a l IH]; [constructor|]. inversion N; subst. constructor; auto. intros I. apply H1, in_or_app. auto. Qed.
Lemma nodup_app_r {A} (l l' : list A) : NoDup (l ++ l') -> NoDup l'.
Proof. induction l as [|a l IH]; auto. intros N. inversion N; auto. Qed.

Lemma search_tree f : forall st v c F m uri, owns (h_heap st) v c F -> NoDup F -> (vdepth v <= f)%nat -> msorted m ->
  exists m', search_trusted f m c uri st = (Ok m', st) /\ msorted m' /\
    forall k, adds (h_heap st) F (only (trusted uri k) (vsearch k v)) (mget k m) (mget k m').
Proof.
  induction f as [|f IH]; intros st v c F m uri O N D S; [assert (H := vdepth_pos v); lia|]. cbn [search_trusted].
  assert (Triv : forall x, (forall k, vsearch k x = None) -> forall k, adds (h_heap st) F (only (trusted uri k) (vsearch k x)) (mget k m) (mget k m)).
  { intros x Hx k. rewrite Hx. unfold only. destruct (trusted uri k); apply adds_none. }
  destruct v as [| | | | | |vs|vm|]; destruct c; cbn [owns] in O; try tauto; try (exists m; split; [reflexivity|]; split; [exact S|]; apply Triv; reflexivity).
  change (owns (h_heap st) (VMap vm) (CMap s) F) in O. rewrite (bind_ok _ _ _ _ _ (text_at_owns _ _ _ _ k_id O)).
  assert (O' := O). apply owns_VMap in O'. destruct O' as (cm & Fs & E & EF & Sv & K & OL). rewrite (bind_get_map _ _ _ _ E).
  rewrite vdepth_VMap in D.
  match goal with |- context [fold_m _ cm ?x] => set (m1 := x) end.
  assert (H1 : msorted m1 /\ forall k, adds (h_heap st) F (only (trusted uri k) (if match text_in k_id vm with Some t => beqb t k | None => false end then Some (VMap vm) else None)) (mget k m) (mget k m1)).
  { subst m1. destruct (text_in k_id vm) as [t|]; [|split; [exact S|]; intros k; unfold only; destruct (trusted uri k); apply adds_none].
    destruct (trusted uri t) eqn:Tr.
    - destruct (mget t m) as [x|] eqn:G.
      + split; [exact S|]. intros k. destruct (beqb t k) eqn:B; [apply beqb_eq in B; subst; rewrite G; reflexivity|]. unfold only; destruct (trusted uri k); apply adds_none.
      + split; [apply msorted_mset, S|]. intros k. rewrite mget_mset by exact S. destruct (beqb t k) eqn:B.
        * apply beqb_eq in B. subst k. rewrite G, beqb_refl, Tr. cbn. exists (CMap s), F. repeat split; auto. intros z Hz; exact Hz.
        * replace (beqb k t) with false; [unfold only; destruct (trusted uri k); apply adds_none|]. symmetry. destruct (beqb k t) eqn:B2; auto. apply beqb_eq in B2. subst. rewrite beqb_refl in B. discriminate.
    - split; [exact S|]. intros k. destruct (beqb t k) eqn:B; [apply beqb_eq in B; subst; rewrite Tr; cbn; apply adds_none|]. unfold only; destruct (trusted uri k); apply adds_none. }
  destruct H1 as [S1 A1]. clearbody m1.
  assert (Fold : forall vm cm Fs m1, List.map fst vm = List.map fst cm -> owns_list (h_heap st) (List.map snd vm) (List.map snd cm) Fs -> NoDup (List.concat Fs) ->
    (vdepths (List.map snd vm) <= f)%nat -> msorted m1 ->
    exists m', fold_m (fun m kc => if not_enum (fst kc) then match snd kc with CMap _ => search_trusted f m (snd kc) uri | _ => ret m end else ret m) cm m1 st = (Ok m', st) /\ msorted m' /\
    forall k, adds (h_heap st) (List.concat Fs) (only (trusted uri k) (vsearch_in k vm)) (mget k m1) (mget k m')).
  { clear - IH. induction vm as [|[k0 w] vm IHv]; intros [|[k1 c] cm] [|f0 Fs] m1; cbn [List.map owns_list fst snd fold_m]; try tauto; try discriminate.
    - intros _ _ _ _ S1. exists m1. split; [reflexivity|]. split; [exact S1|]. intros k. cbn. unfold only. destruct (trusted uri k); apply adds_none.
    - intros K [O OL] N D S1. injection K as <- K. cbn [List.concat] in N. cbn [vdepths] in D.
      assert (One : exists m2, (if not_enum k0 then match c with CMap _ => search_trusted f m1 c uri | _ => ret m1 end else ret m1) st = (Ok m2, st) /\ msorted m2 /\
        forall k, adds (h_heap st) f0 (only (trusted uri k) (if not_enum k0 then vsearch k w else None)) (mget k m1) (mget k m2)).
      { destruct (not_enum k0).
        - destruct c; try (exists m1; split; [reflexivity|]; split; [exact S1|]; intros k; destruct w; cbn [owns] in O; try tauto; cbn; unfold only; destruct (trusted uri k); apply adds_none).
          apply IH; auto; [eapply nodup_app_l, N|lia].
        - exists m1. split; [reflexivity|]. split; [exact S1|]. intros k. unfold only. destruct (trusted uri k); apply adds_none. }
      destruct One as (m2 & E2 & S2 & A2). rewrite (bind_ok _ _ _ _ _ E2).
      destruct (IHv cm Fs m2 K OL (nodup_app_r _ _ N) ltac:(lia) S2) as (m' & E3 & S3 & A3). exists m'. split; [exact E3|]. split; [exact S3|]. intros k.
      cbn [vsearch_in List.concat]. specialize (A2 k). specialize (A3 k).
      assert (Q := adds_trans _ _ _ (f0 ++ List.concat Fs) _ _ _ _ _ (fun s H => in_or_app _ _ s (or_introl H)) (fun s H => in_or_app _ _ s (or_intror H)) A2 A3).
      unfold only in *. destruct (trusted uri k); [exact Q|exact Q]. }
  destruct (Fold vm cm Fs m1 K OL) as (m' & E3 & S3 & A3); auto.
  { subst F. inversion N; auto. } { lia. }
  exists m'. split; [exact E3|]. split; [exact S3|]. intros k. rewrite vsearch_VMap. specialize (A1 k). specialize (A3 k).
  assert (Q := adds_trans _ F _ F _ _ _ _ _ (fun s H => H) ltac:(subst F; intros z Hz; right; exact Hz) A1 A3).
  unfold only in *. destruct (trusted uri k); [|exact Q]. destruct (match text_in k_id vm with Some t => beqb t k | None => false end); exact Q.
Qed.

(** ** What a loader knows *)
Definition vschemas : Type := bytes -> option value.
(** Every schema of the loader is a tree, and none of its containers is in [B]. *)
Definition stocked (h : list storage) (B : list nat) (own : schemas) (vown : vschemas) : Prop :=
  forall k, match mget k own, vown k with
            | Some c, Some v => exists F, owns h v c F /\ NoDup F /\ (forall s, In s F -> ~ In s B)
            | None, None => True
            | _, _ => False
            end.
(** A URI parted at its first number sign.  Without one the base is resolved. *)
Inductive parted : bytes -> bytes -> bytes -> Prop :=
| parted_hash b t : ~ In "#"%char b -> parted (b ++ "#"%char :: t) b t
| parted_none u : ~ In "#"%char u -> parted u (resolve_uri u []) [].
Lemma split_hash_some b t : ~ In "#"%char b -> split_hash (b ++ "#"%char :: t) = Some (b, t).
Proof.
  induction b as [|c b IH]; cbn; intros N; [reflexivity|]. destruct (aeqb c "#") eqn:E; [apply aeqb_eq in E; subst; tauto|]. rewrite IH by tauto. reflexivity.
Qed.
Lemma split_hash_none u : ~ In "#"%char u -> split_hash u = None.
Proof.
  induction u as [|c b IH]; cbn; intros N; [reflexivity|]. destruct (aeqb c "#") eqn:E; [apply aeqb_eq in E; subst; tauto|]. rewrite IH by tauto. reflexivity.
Qed.
Lemma parted_ok u b t : parted u b t -> base_and_fragment u = (b, t).
Proof. intros [b' t' N|u' N]; unfold base_and_fragment; [rewrite split_hash_some by exact N|rewrite split_hash_none by exact N]; reflexivity. Qed.

(** What a URI stands for: the schema with that URI, or what the fragment, a JSON pointer in
    percent-encoding, locates in the schema with the base URI; the loader first, then those it is based on. *)
Inductive found : list vschemas -> bytes -> value -> Prop :=
| found_uri own up u v : own u = Some v -> found (own :: up) u v
| found_in own up u b t ks p v w : own u = None -> parted u b t -> own b = Some v -> encoded (rfc_text ks) t -> locates v ks p w -> found (own :: up) u w
| found_up own up u b t w : own u = None -> parted u b t -> own b = None -> found up u w -> found (own :: up) u w.
(** A URI that stands for nothing. *)
Inductive missing : list vschemas -> bytes -> Prop :=
| missing_end own u b t : own u = None -> parted u b t -> own b = None -> missing [own] u
| missing_in own up u b t ks v : own u = None -> parted u b t -> own b = Some v -> encoded (rfc_text ks) t -> Forall canonical ks ->
    (forall p w, ~ locates v ks p w) -> missing (own :: up) u
| missing_up own up u b t : own u = None -> parted u b t -> own b = None -> missing up u -> missing (own :: up) u.

Lemma fragment_tree st v c F ks : owns (h_heap st) v c F -> NoDup F -> lists_fit v ->
  (forall p w, locates v ks p w -> exists d Fd, fragment_of c (rfc_text ks) st = (Ok d, st) /\ owns (h_heap st) w d Fd /\ NoDup Fd) /\
  ((forall p w, ~ locates v ks p w) -> Forall canonical ks -> fragment_of c (rfc_text ks) st = (Throw RuntimeError, st)).
Proof.
  intros O N L. destruct (C21_lookup_exact _ _ _ _ _ ks (local_tree st v c F O N) L) as [A B].
  assert (R : HState (firstn (List.length (h_vars st)) (h_vars st ++ [c])) (h_heap st) = st) by (rewrite firstn_last; destruct st; reflexivity).
  split.
  - intros p w Lw. destruct (A p w Lw) as (l' & cw & Fw & E & T & _). exists cw, Fw. unfold fragment_of, with_local.
    rewrite (bind_ok _ _ _ _ _ E). unfold read_ref. cbn [resolve_throw]. unfold bind, ret. unfold load. rewrite (tr_peek _ _ _ _ _ T). cbn [h_vars h_heap]. rewrite R.
    split; [reflexivity|]. split; [apply (tr_owns _ _ _ _ _ T)|apply (tr_nodup _ _ _ _ _ T)].
  - intros H C. unfold fragment_of, with_local. rewrite (bind_throw _ _ _ _ _ (B H C)). cbn [h_vars h_heap]. rewrite R. reflexivity.
Qed.

Definition fits (vld : list vschemas) : Prop := forall own k v, In own vld -> own k = Some v -> lists_fit v.
Lemma get_found vld u w : found vld u w -> forall st B ld, Forall2 (stocked (h_heap st) B) ld vld -> fits vld ->
  exists c F, get_schema ld u st = (Ok c, st) /\ owns (h_heap st) w c F /\ NoDup F.
Proof.
  induction 1 as [vown up u v G|vown up u b t ks p v w G P Gb En Lw|vown up u b t w G P Gb H IH]; intros st B ld S Ft; inversion S as [|own ? ld' ? So Sup]; subst; cbn [get_schema].
  - specialize (So u). rewrite G in So. destruct (mget u own) as [c|]; [|tauto]. destruct So as (F & O & N & _). exists c, F. auto.
  - assert (So1 := So u). rewrite G in So1. destruct (mget u own); [tauto|]. rewrite (parted_ok _ _ _ P).
    assert (So2 := So b). rewrite Gb in So2. destruct (mget b own) as [c|]; [|tauto]. destruct So2 as (F & O & N & _).
    rewrite (C46_decodes _ _ En). apply (fragment_tree st v c F ks O N (Ft _ _ _ (or_introl eq_refl) Gb)) in Lw. exact Lw.
  - assert (So1 := So u). rewrite G in So1. destruct (mget u own); [tauto|]. rewrite (parted_ok _ _ _ P).
    assert (So2 := So b). rewrite Gb in So2. destruct (mget b own) as [c|]; [tauto|].
    destruct (IH st B ld' Sup) as (c & F & E & R); [intros o k v I; apply Ft; right; exact I|].
    destruct ld'; [cbn in E; discriminate|]. exists c, F. auto.
Qed.
Lemma get_missing vld u : missing vld u -> forall st B ld, Forall2 (stocked (h_heap st) B) ld vld -> fits vld ->
  get_schema ld u st = (Throw RuntimeError, st).
Proof.
  induction 1 as [vown u b t G P Gb|vown up u b t ks v G P Gb En Ca Nl|vown up u b t G P Gb H IH]; intros st B ld S Ft; inversion S as [|own ? ld' ? So Sup]; subst; cbn [get_schema].
  - inversion Sup; subst. assert (So1 := So u). rewrite G in So1. destruct (mget u own); [tauto|]. rewrite (parted_ok _ _ _ P).
    assert (So2 := So b). rewrite Gb in So2. destruct (mget b own) as [c|]; [tauto|]. reflexivity.
  - assert (So1 := So u). rewrite G in So1. destruct (mget u own); [tauto|]. rewrite (parted_ok _ _ _ P).
    assert (So2 := So b). rewrite Gb in So2. destruct (mget b own) as [c|]; [|tauto]. destruct So2 as (F & O & N & _).
    rewrite (C46_decodes _ _ En). apply (fragment_tree st v c F ks O N (Ft _ _ _ (or_introl eq_refl) Gb)); auto.
  - assert (So1 := So u). rewrite G in So1. destruct (mget u own); [tauto|]. rewrite (parted_ok _ _ _ P).
    assert (So2 := So b). rewrite Gb in So2. destruct (mget b own) as [c|]; [tauto|].
    assert (E := IH st B ld' Sup (fun o k v I => Ft o k v (or_intror I))).
    destruct ld'; [cbn in E; discriminate|]. exact E.
Qed.

(** ** Adding *)
Lemma mget_insert_all k : forall m own, msorted own -> msorted (insert_all own m) /\ mget k (insert_all own m) = match mget k own with Some c => Some c | None => mget k m end.
Proof.
  induction m as [|[k0 c] m IH]; intros own S; cbn [insert_all mget]; [split; [exact S|destruct (mget k own); reflexivity]|].
  destruct (mget k0 own) as [x|] eqn:G.
  - destruct (IH own S) as [A ->]. split; [exact A|]. destruct (mget k own) eqn:G2; auto. destruct (beqb k k0) eqn:B; auto. apply beqb_eq in B. congruence.
  - destruct (IH (mset k0 c own) (msorted_mset _ _ _ S)) as [A ->]. split; [exact A|]. rewrite mget_mset by exact S. destruct (beqb k k0) eqn:B; auto.
    apply beqb_eq in B. subst. rewrite G. reflexivity.
Qed.
(** What the loader knows after a schema [v], already normalised, has been added. *)
Definition with_schema (vown : vschemas) (uri : bytes) (v : value) : vschemas := fun k =>
  match vown k with
  | Some x => Some x
  | None => if beqb k uri then Some v else only (trusted uri k) (vsearch k v)
  end.
Lemma stocked_frame h h' B B' own vown : (forall s x, nth_error h s = Some x -> ~ container x -> nth_error h' s = Some x) ->
  (forall s, (s < List.length h)%nat -> ~ In s B -> nth_error h' s = nth_error h s) -> (forall s, (s < List.length h)%nat -> In s B' -> In s B) ->
  stocked h B own vown -> stocked h' B' own vown.
Proof.
  intros K H I S k. specialize (S k). destruct (mget k own), (vown k); auto. destruct S as (F & O & N & D). exists F.
  split; [|split; [exact N|]].
  - eapply owns_frame; [exact K| |exact O]. intros s Hs. apply H; [eapply owns_lt; eauto|auto].
  - intros s Hs Hb. apply (D s Hs), I; auto. eapply owns_lt; eauto.
Qed.

Lemma add_tree st v c F fuel own up uri vown vup : owns (h_heap st) v c F -> NoDup F -> (vdepth v <= fuel)%nat -> (vdepth (vnorm (resolve_uri uri []) v) <= fuel)%nat ->
  stocked (h_heap st) F own vown -> Forall2 (stocked (h_heap st) F) up vup -> msorted own ->
  exists st' own' F', add_schema fuel own uri c st = (Ok own', st') /\ h_vars st' = h_vars st /\ msorted own' /\
    owns (h_heap st') (vnorm (resolve_uri uri []) v) c F' /\ NoDup F' /\ (forall s, In s F' -> In s F \/ (hlen st <= s)%nat) /\
    (forall s, (s < hlen st)%nat -> ~ In s F -> nth_error (h_heap st') s = nth_error (h_heap st) s) /\
    (forall s x, nth_error (h_heap st) s = Some x -> ~ container x -> nth_error (h_heap st') s = Some x) /\
    Forall2 (stocked (h_heap st') []) (own' :: up) (with_schema vown (resolve_uri uri []) (vnorm (resolve_uri uri []) v) :: vup).
Proof.
  intros O N D D' So Su Ms. set (luri := resolve_uri uri []) in *.
  destruct (local_norm_tree st v c F fuel luri O N D) as (st' & F' & E & O' & N' & I & V & H).
  assert (K : forall s x, nth_error (h_heap st) s = Some x -> ~ container x -> nth_error (h_heap st') s = Some x).
  { intros s x Ex Nx. rewrite H; auto; [apply nth_error_Some; congruence|eapply owns_kept; eauto]. }
  destruct (search_tree fuel st' _ c F' [(luri, c)] luri O' N' D') as (m' & Em & Sm & Am); [cbn; tauto|].
  exists st', (insert_all own m'), F'. split; [unfold add_schema; fold luri; rewrite (bind_ok _ _ _ _ _ E), (bind_ok _ _ _ _ _ Em); reflexivity|].
  split; [exact V|]. split; [apply (mget_insert_all []), Ms|]. split; [exact O'|]. split; [exact N'|]. split; [exact I|]. split; [exact H|]. split; [exact K|].
  constructor.
  - intros k. destruct (mget_insert_all k m' own Ms) as [_ ->]. unfold with_schema.
    assert (So' := stocked_frame _ (h_heap st') F [] own vown K H (fun s _ X => False_ind _ X) So k).
    destruct (mget k own) as [c0|], (vown k) as [v0|]; try tauto. specialize (Am k). cbn [mget] in Am. destruct (beqb k luri) eqn:B.
    + cbn in Am. rewrite Am. exists F'. auto.
    + unfold adds in Am. destruct (only (trusted luri k) (vsearch k (vnorm luri v))) as [w|].
      * destruct Am as (c1 & F1 & -> & O1 & N1 & _). exists F1. auto.
      * rewrite Am. exact Logic.I.
  - clear So Ms. revert vup Su. induction up as [|o up IH]; intros vup Su; inversion Su; subst; constructor; auto.
    eapply stocked_frame; [exact K|exact H| |eassumption]. intros s _ [].
Qed.

(** ** Depth does not change *)
Lemma vnorm_depth v : forall uri, vdepth (vnorm uri v) = vdepth v.
Proof.
  induction v as [| | | | | |vs IH|vm IH|] using value_ind'; intros uri; try reflexivity.
  - cbn [vnorm]. rewrite !vdepth_VList. f_equal. induction IH as [|x l Hx _ IHl]; cbn [List.map vdepths]; auto.
  - cbn [vnorm]. rewrite !vdepth_VMap. f_equal. generalize (is_reference vm) (base_in uri vm). intros r b.
    induction IH as [|[k x] l Hx _ IHl]; cbn [List.map vdepths snd fst]; auto. rewrite IHl. f_equal. cbn [snd] in Hx.
    unfold norm_entry. destruct x; try (destruct (r || beqb k k_enum)%bool; auto; fail). destruct (beqb k k_id); [reflexivity|]. destruct (beqb k k_ref); reflexivity.
Qed.
