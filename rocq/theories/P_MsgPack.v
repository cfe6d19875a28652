(** C42: MessagePack headers carry exact counts.  C45: MessagePack round trip. *)
From Verif Require Import Base Float FloatProofs Value Emit Convert Builder Blob EventBuffer EventBufferProofs P_EventBuffer MsgPack.
From Verif Require P_JSONRound P_Builder.
From Coq Require Import SpecFloat.
Open Scope N_scope.

(** ** Specification *)

(** The MessagePack form of a tree of calls: each container header gives the number of
    elements or entries that follow, each raw header the number of bytes. *)
Definition packed_scalar (e : eev) : list ptok :=
  match e with
  | EvNull => [PNil] | EvTrue => [PTrue] | EvFalse => [PFalse]
  | EvInt z => [PInt z] | EvUns n => [PUns n] | EvFlt d => [PDouble d]
  | EvStr s => PRaw (N.of_nat (List.length s)) :: List.map PByte s
  | EvBlob b => PRaw (N.of_nat (5 + List.length (List.concat b))) :: List.map PByte (bchr 0 :: s2b "BLOB" ++ List.concat b)
  | _ => []
  end.
Fixpoint packed (t : tree) : list ptok :=
  match t with
  | TScalar e => packed_scalar e
  | TList _ l => PArray (N.of_nat (List.length l)) :: flat_map packed l
  | TMap _ m => PMap (N.of_nat (List.length m)) :: flat_map (fun kv => packed (fst kv) ++ packed (snd kv)) m
  end.

(** Strings and blobs fit a 32-bit count. *)
Definition small_scalar (e : eev) : Prop :=
  match e with
  | EvStr s => N.of_nat (List.length s) < 2^32
  | EvBlob b => N.of_nat (5 + List.length (List.concat b)) < 2^32
  | _ => True
  end.
Fixpoint small (t : tree) : Prop :=
  match t with
  | TScalar e => small_scalar e
  | TList _ l => (fix go l := match l with [] => True | x :: t => small x /\ go t end) l
  | TMap _ m => (fix go m := match m with [] => True | kv :: t => (small (fst kv) /\ small (snd kv)) /\ go t end) m
  end.

(** Every length is either withheld (negative), in which case the lengths inside do not
    matter, or correct. *)
Fixpoint announced (t : tree) : Prop :=
  match t with
  | TScalar _ => True
  | TList n l => (n < 0)%Z \/ (n = Z.of_nat (List.length l) /\
      (fix go l := match l with [] => True | x :: t => announced x /\ go t end) l)
  | TMap n m => (n < 0)%Z \/ (n = Z.of_nat (List.length m) /\
      (fix go m := match m with [] => True | kv :: t => (announced (fst kv) /\ announced (snd kv)) /\ go t end) m)
  end.

(** ** Proofs *)

Section all.
  Variable P : tree -> Prop.
  Lemma all_list l : (fix go l := match l with [] => True | x :: t => P x /\ go t end) l <-> Forall P l.
  Proof. induction l as [|x l IH]; [split; auto|]. rewrite IH. split; [intros [? ?]; constructor; auto|inversion 1; auto]. Qed.
  Lemma all_map m : (fix go m := match m with [] => True | kv :: t => (P (fst kv) /\ P (snd kv)) /\ go t end) m
     <-> Forall (fun kv => P (fst kv) /\ P (snd kv)) m.
  Proof. induction m as [|x l IH]; [split; auto|]. rewrite IH. split; [intros [? ?]; constructor; auto|inversion 1; auto]. Qed.
End all.

Lemma mp_emits_app f m a c : mp_emits f m (a ++ c) = do m1 <- mp_emits f m a; mp_emits f m1 c.
Proof. revert m. induction a as [|e a IH]; intros m; [reflexivity|]. cbn [app mp_emits]. destruct (mp_emit f m e); cbn [rbind]; auto. Qed.

Lemma mp_close f b o e : (e = EvEndMap \/ e = EvEndList) -> mp_emit (S f) (MP (Some b) o) e =
  do b1 <- eb_emit b e;
  if (eb_level b1 <=? 0)%Z then do (xs, _) <- eb_playback b1; mp_emits f (MP None o) xs
  else Ok (MP (Some b1) o).
Proof.
  intros E.
  assert (R : forall es m, (fix replay (m : mp) (es : list eev) : res mp :=
      match es with [] => Ok m | x :: t => do m1 <- mp_emit f m x; replay m1 t end) m es = mp_emits f m es).
  { induction es as [|x es IH]; intros m; [reflexivity|]. cbn [mp_emits]. destruct (mp_emit f m x); cbn [rbind]; auto. }
  destruct E as [-> | ->]; cbn [mp_emit mp_buf mp_out]; (destruct (eb_emit b _); cbn [rbind]; try reflexivity);
    (destruct (_ <=? 0)%Z; [|reflexivity]); (destruct (eb_playback _) as [[xs ?]| | | |]; cbn [rbind]; try reflexivity); apply R.
Qed.

Lemma wrap32_small n : n < 2^32 -> wrap32 n = n.
Proof. apply N.mod_small. Qed.

Lemma pbytes_concat b : flat_map pbytes b = List.map PByte (List.concat b).
Proof. induction b as [|x b IH]; cbn; [reflexivity|]. rewrite map_app, IH. reflexivity. Qed.

Lemma mp_scalar_packed e : scalar_ok e -> small_scalar e -> mp_scalar e = packed_scalar e.
Proof.
  destruct e; cbn [mp_scalar packed_scalar small_scalar scalar_ok]; intros O S; try reflexivity.
  - rewrite wrap32_small by exact S. reflexivity.
  - destruct O as [_ O]. rewrite total_length_small by exact O. rewrite wrap32_small by lia.
    replace (N.of_nat (List.length (List.concat b)) + 5) with (N.of_nat (5 + List.length (List.concat b))) by lia.
    f_equal. unfold pbytes, magic. rewrite pbytes_concat. cbn [List.map app]. rewrite map_app. reflexivity.
Qed.

Lemma mp_emit_scalar f m e : scalar_ok e -> mp_buf m = None -> mp_emit (S f) m e = Ok (mp_put m (mp_scalar e)).
Proof. intros O B. destruct e; cbn [scalar_ok] in O; try solve [destruct O]; cbn [mp_emit]; rewrite B; reflexivity. Qed.

(** A tree whose lengths are exact is packed directly. *)
Lemma direct f t : tree_ok t -> small t -> narrow t -> forall m, mp_buf m = None ->
  mp_emits (S f) m (calls (exact t)) = Ok (mp_put m (packed t)).
Proof.
  induction t as [e|n l IH|n l IH] using tree_ind'; intros O S N m B; cbn [exact calls packed].
  - cbn [mp_emits]. rewrite mp_emit_scalar; auto.
    + cbn [rbind]. f_equal. f_equal. cbn in O, S. destruct e; cbn [one_buffer]; try (apply mp_scalar_packed; assumption).
      rewrite mp_scalar_packed; cbn [packed_scalar List.concat].
      * rewrite app_nil_r. reflexivity.
      * cbn in *. rewrite app_nil_r. split; [discriminate|apply O].
      * cbn [small_scalar List.concat]. rewrite app_nil_r. exact S.
    + cbn in O. destruct e; cbn [one_buffer]; auto. cbn. rewrite app_nil_r. split; [discriminate|apply O].
  - apply tree_ok_list in O as [_ O]. cbn [small] in S. apply all_list in S. cbn [narrow] in N. destruct N as [_ N]. apply all_list in N.
    cbn [mp_emits]. cbn [mp_emit]. rewrite B. destruct (Z.ltb_spec (Z.of_nat (List.length l)) 0); [lia|]. cbn [rbind].
    rewrite mp_emits_app. replace (Z.to_N (Z.of_nat (List.length l))) with (N.of_nat (List.length l)) by lia.
    assert (K : forall m, mp_buf m = None -> mp_emits (Datatypes.S f) m (flat_map calls (List.map exact l)) = Ok (mp_put m (flat_map packed l))).
    { clear -IH O S N. induction IH as [|t l Ht _ IH]; intros m B; cbn [List.map flat_map].
      - cbn. unfold mp_put. rewrite app_nil_r. destruct m; reflexivity.
      - inversion O; inversion S; inversion N; subst. rewrite mp_emits_app, Ht by auto. cbn [rbind]. rewrite IH by auto.
        unfold mp_put. cbn. rewrite app_assoc. reflexivity. }
    rewrite K by exact B. destruct m as [mb mo]. cbn [mp_buf] in B. subst mb. unfold mp_put. cbn [rbind mp_emits mp_emit mp_buf mp_out]. rewrite <- app_assoc. reflexivity.
  - apply tree_ok_map in O as [_ O]. cbn [small] in S. apply all_map in S. cbn [narrow] in N. destruct N as [_ N]. apply all_map in N.
    cbn [mp_emits]. cbn [mp_emit]. rewrite B. destruct (Z.ltb_spec (Z.of_nat (List.length l)) 0); [lia|]. cbn [rbind].
    rewrite mp_emits_app. replace (Z.to_N (Z.of_nat (List.length l))) with (N.of_nat (List.length l)) by lia.
    assert (K : forall m, mp_buf m = None -> mp_emits (Datatypes.S f) m (flat_map (fun kv => calls (fst kv) ++ calls (snd kv)) (List.map (fun kv => (exact (fst kv), exact (snd kv))) l))
        = Ok (mp_put m (flat_map (fun kv => packed (fst kv) ++ packed (snd kv)) l))).
    { clear -IH O S N. induction IH as [|t l [Hk Hv] _ IH]; intros m B; cbn [List.map flat_map fst snd].
      - cbn. unfold mp_put. rewrite app_nil_r. destruct m; reflexivity.
      - inversion O as [|? ? [? ?]]; inversion S as [|? ? [? ?]]; inversion N as [|? ? [? ?]]; subst. rewrite <- app_assoc, mp_emits_app, Hk by auto. cbn [rbind].
        rewrite mp_emits_app, Hv by auto. cbn [rbind]. rewrite IH by auto.
        unfold mp_put. cbn. rewrite <- !app_assoc. reflexivity. }
    rewrite K by exact B. destruct m as [mb mo]. cbn [mp_buf] in B. subst mb. unfold mp_put. cbn [rbind mp_emits mp_emit mp_buf mp_out]. rewrite <- app_assoc. reflexivity.
Qed.

(** The level after recording. *)
Lemma emit_level b e b' : good b -> eb_emit b e = Ok b' -> eb_level b' = (eb_level b + match e with
   | EvBeginDoc | EvBeginMap _ | EvBeginList _ => 1 | EvEndDoc | EvEndMap | EvEndList => -1 | _ => 0 end)%Z.
Proof.
  intros G E. destruct (grand_parent_good b G) as [p [Q1 _]].
  destruct e; cbn [eb_emit] in E; rewrite ?parent_update_good in E by exact G; rewrite ?Q1 in E; cbn [rbind] in E; injection E as <-; reflexivity.
Qed.

Lemma calls_level t : tree_ok t -> forall b, good b -> exists b', eb_emits b (calls t) = Ok b' /\ good b' /\ eb_level b' = eb_level b.
Proof.
  intros O b G. destruct (records_all t O b G) as [blk [E [G' _]]]. eexists. split; [exact E|]. split; [exact G'|]. reflexivity.
Qed.

(** While a buffer is open, calls go to it. *)
Lemma held f o t : tree_ok t -> forall b, good b -> (1 <= eb_level b)%Z ->
  exists b', eb_emits b (calls t) = Ok b' /\ good b' /\ eb_level b' = eb_level b /\
    mp_emits (S f) (MP (Some b) o) (calls t) = Ok (MP (Some b') o).
Proof.
  induction t as [e|n l IH|n l IH] using tree_ind'; intros O b G L.
  - destruct (calls_level (TScalar e) O b G) as [b' [E [G' L']]]. exists b'. split; [exact E|]. split; [exact G'|]. split; [exact L'|].
    cbn [calls eb_emits] in E. cbn [calls mp_emits]. cbn in O. destruct (eb_emit b e) as [b1| | | |] eqn:E1; cbn [rbind] in E; try discriminate. injection E as ->.
    destruct e; cbn [scalar_ok] in O; try solve [destruct O]; cbn [mp_emit mp_buf mp_out]; rewrite E1; reflexivity.
  - apply tree_ok_list in O as [_ O].
    destruct (eb_emit_good b (EvBeginList n) G) as [b1 [E1 G1]]. pose proof (emit_level _ _ _ G E1) as L1. cbn in L1.
    assert (K : forall b, good b -> (1 <= eb_level b)%Z -> exists b', eb_emits b (flat_map calls l) = Ok b' /\ good b' /\ eb_level b' = eb_level b /\
       mp_emits (S f) (MP (Some b) o) (flat_map calls l) = Ok (MP (Some b') o)).
    { clear -IH O. induction IH as [|t l Ht _ IH]; intros b G L; cbn [flat_map].
      - exists b. cbn. auto.
      - inversion O; subst. destruct (Ht H1 b G L) as [b1 [E1 [G1 [L1 M1]]]]. destruct (IH H2 b1 G1 ltac:(lia)) as [b2 [E2 [G2 [L2 M2]]]].
        exists b2. rewrite emits_app, E1, mp_emits_app, M1. cbn [rbind]. repeat split; auto. lia. }
    destruct (K b1 G1 ltac:(lia)) as [b2 [E2 [G2 [L2 M2]]]].
    destruct (eb_emit_good b2 EvEndList G2) as [b3 [E3 G3]]. pose proof (emit_level _ _ _ G2 E3) as L3. cbn in L3.
    exists b3. cbn [calls eb_emits]. rewrite E1. cbn [rbind]. rewrite emits_app, E2. cbn [rbind eb_emits]. rewrite E3. cbn [rbind].
    split; [reflexivity|]. split; [exact G3|]. split; [lia|].
    cbn [mp_emits]. cbn [mp_emit mp_buf mp_out]. rewrite E1. cbn [rbind]. rewrite mp_emits_app, M2. cbn [rbind]. cbn [mp_emits].
    rewrite mp_close by auto. rewrite E3. cbn [rbind]. destruct (Z.leb_spec (eb_level b3) 0); [lia|]. reflexivity.
  - apply tree_ok_map in O as [_ O].
    destruct (eb_emit_good b (EvBeginMap n) G) as [b1 [E1 G1]]. pose proof (emit_level _ _ _ G E1) as L1. cbn in L1.
    assert (K : forall b, good b -> (1 <= eb_level b)%Z -> exists b', eb_emits b (flat_map (fun kv => calls (fst kv) ++ calls (snd kv)) l) = Ok b' /\ good b' /\ eb_level b' = eb_level b /\
       mp_emits (S f) (MP (Some b) o) (flat_map (fun kv => calls (fst kv) ++ calls (snd kv)) l) = Ok (MP (Some b') o)).
    { clear -IH O. induction IH as [|t l [Hk Hv] _ IH]; intros b G L; cbn [flat_map].
      - exists b. cbn. auto.
      - inversion O as [|? ? [O1 O2] O3]; subst. destruct (Hk O1 b G L) as [b1 [E1 [G1 [L1 M1]]]].
        destruct (Hv O2 b1 G1 ltac:(lia)) as [b2 [E2 [G2 [L2 M2]]]]. destruct (IH O3 b2 G2 ltac:(lia)) as [b3 [E3 [G3 [L3 M3]]]].
        exists b3. rewrite <- app_assoc, emits_app, E1, mp_emits_app, M1. cbn [rbind]. rewrite emits_app, E2, mp_emits_app, M2. cbn [rbind]. repeat split; auto. lia. }
    destruct (K b1 G1 ltac:(lia)) as [b2 [E2 [G2 [L2 M2]]]].
    destruct (eb_emit_good b2 EvEndMap G2) as [b3 [E3 G3]]. pose proof (emit_level _ _ _ G2 E3) as L3. cbn in L3.
    exists b3. cbn [calls eb_emits]. rewrite E1. cbn [rbind]. rewrite emits_app, E2. cbn [rbind eb_emits]. rewrite E3. cbn [rbind].
    split; [reflexivity|]. split; [exact G3|]. split; [lia|].
    cbn [mp_emits]. cbn [mp_emit mp_buf mp_out]. rewrite E1. cbn [rbind]. rewrite mp_emits_app, M2. cbn [rbind]. cbn [mp_emits].
    rewrite mp_close by auto. rewrite E3. cbn [rbind]. destruct (Z.leb_spec (eb_level b3) 0); [lia|]. reflexivity.
Qed.

(** A container whose length is withheld is recorded and played back when it ends. *)
Lemma withheld f o t n e0 inner e1 : tree_ok t -> calls t = e0 :: inner ++ [e1] ->
  (e0 = EvBeginList n /\ e1 = EvEndList \/ e0 = EvBeginMap n /\ e1 = EvEndMap) -> (n < 0)%Z ->
  (forall b, good b -> (1 <= eb_level b)%Z -> exists b', eb_emits b inner = Ok b' /\ good b' /\ eb_level b' = eb_level b /\
       mp_emits (S f) (MP (Some b) o) inner = Ok (MP (Some b') o)) ->
  mp_emits (S f) (MP None o) (calls t) = mp_emits f (MP None o) (calls (counted t)).
Proof.
  intros O C E N K.
  assert (G0 : good eb_new) by apply good_empty.
  destruct (records_all t O eb_new G0) as [blk [R1 [_ [_ R2]]]]. change (upd eb_new) with (@nil event) in R1. cbn [app] in R1.
  destruct (eb_emit_good eb_new e0 G0) as [b1 [E1 G1]]. pose proof (emit_level _ _ _ G0 E1) as L1.
  assert (L1' : eb_level b1 = 1%Z) by (destruct E as [[-> _]|[-> _]]; cbn in L1; lia).
  destruct (K b1 G1 ltac:(lia)) as [b2 [E2 [G2 [L2 M2]]]].
  rewrite C in R1. cbn [eb_emits] in R1. rewrite E1 in R1. cbn [rbind] in R1. rewrite emits_app, E2 in R1. cbn [rbind eb_emits] in R1.
  destruct (eb_emit b2 e1) as [b3| | | |] eqn:E3; cbn [rbind] in R1; try discriminate. injection R1 as ->.
  rewrite C. cbn [mp_emits].
  assert (S0 : mp_emit (S f) (MP None o) e0 = Ok (MP (Some b1) o)).
  { destruct E as [[-> _]|[-> _]]; cbn [mp_emit mp_buf mp_out]; (destruct (Z.ltb_spec n 0); [|lia]); rewrite E1; reflexivity. }
  rewrite S0. cbn [rbind]. rewrite mp_emits_app, M2. cbn [rbind mp_emits]. rewrite mp_close by (destruct E as [[_ ->]|[_ ->]]; auto).
  rewrite E3. cbn [rbind eb_level eb_new]. cbn [Z.leb Z.compare]. unfold eb_playback. cbn [eb_events]. rewrite R2. cbn [rbind].
  destruct (mp_emits f (MP None o) (calls (counted t))); reflexivity.
Qed.

Lemma held_list f o l : Forall tree_ok l -> forall b, good b -> (1 <= eb_level b)%Z -> exists b', eb_emits b (flat_map calls l) = Ok b' /\ good b' /\ eb_level b' = eb_level b /\
       mp_emits (S f) (MP (Some b) o) (flat_map calls l) = Ok (MP (Some b') o).
Proof.
  induction 1 as [|t l Ht _ IH]; intros b G L; cbn [flat_map].
  - exists b. cbn. auto.
  - destruct (held f o t Ht b G L) as [b1 [E1 [G1 [L1 M1]]]]. destruct (IH b1 G1 ltac:(lia)) as [b2 [E2 [G2 [L2 M2]]]].
    exists b2. rewrite emits_app, E1, mp_emits_app, M1. cbn [rbind]. repeat split; auto. lia.
Qed.

Lemma held_map f o l : Forall (fun kv => tree_ok (fst kv) /\ tree_ok (snd kv)) l -> forall b, good b -> (1 <= eb_level b)%Z ->
  exists b', eb_emits b (flat_map (fun kv => calls (fst kv) ++ calls (snd kv)) l) = Ok b' /\ good b' /\ eb_level b' = eb_level b /\
       mp_emits (S f) (MP (Some b) o) (flat_map (fun kv => calls (fst kv) ++ calls (snd kv)) l) = Ok (MP (Some b') o).
Proof.
  induction 1 as [|t l [O1 O2] _ IH]; intros b G L; cbn [flat_map].
  - exists b. cbn. auto.
  - destruct (held f o _ O1 b G L) as [b1 [E1 [G1 [L1 M1]]]]. destruct (held f o _ O2 b1 G1 ltac:(lia)) as [b2 [E2 [G2 [L2 M2]]]].
    destruct (IH b2 G2 ltac:(lia)) as [b3 [E3 [G3 [L3 M3]]]].
    exists b3. rewrite <- app_assoc, emits_app, E1, mp_emits_app, M1. cbn [rbind]. rewrite emits_app, E2, mp_emits_app, M2. cbn [rbind]. repeat split; auto. lia.
Qed.

(** C42.  Whatever lengths are withheld, at any depth, what reaches the packer for a tree
    of calls is its MessagePack form with the exact counts, and no buffer stays open.
    _partial: containers of fewer than 2^31 entries, strings and blobs below 2^32 bytes,
    blobs of at least one buffer (the first is refuted below, the last in C20). *)
Theorem C42_counts_partial : forall fuel t m,
  tree_ok t -> narrow t -> small t -> announced t -> mp_buf m = None ->
  mp_emits (S (S fuel)) m (calls t) = Ok (MP None (mp_out m ++ packed t)).
Proof.
  intros f t. induction t as [e|n l IH|n l IH] using tree_ind'; intros [b o] O N S A B; cbn [mp_buf] in B; subst b; cbn [mp_out].
  - cbn [calls mp_emits packed]. rewrite mp_emit_scalar by auto. cbn [rbind]. unfold mp_put. cbn. rewrite mp_scalar_packed by auto. reflexivity.
  - cbn [announced] in A. destruct A as [A|[-> A]].
    + erewrite (withheld (Datatypes.S f) o (TList n l)); [|exact O|reflexivity|left; split; reflexivity|exact A|].
      * rewrite counted_exact by exact N. rewrite direct by auto. reflexivity.
      * apply tree_ok_list in O as [_ O]. apply held_list, O.
    + apply tree_ok_list in O as [_ O]. cbn [small] in S. apply all_list in S. cbn [narrow] in N. destruct N as [_ N]. apply all_list in N.
      apply all_list in A.
      cbn [calls mp_emits]. cbn [mp_emit mp_buf]. destruct (Z.ltb_spec (Z.of_nat (List.length l)) 0); [lia|]. cbn [rbind].
      rewrite mp_emits_app. replace (Z.to_N (Z.of_nat (List.length l))) with (N.of_nat (List.length l)) by lia.
      assert (K : forall o, mp_emits (Datatypes.S (Datatypes.S f)) (MP None o) (flat_map calls l) = Ok (MP None (o ++ flat_map packed l))).
      { clear -IH O S N A. induction IH as [|t l Ht _ IH]; intros o; cbn [flat_map].
        - cbn. rewrite app_nil_r. reflexivity.
        - inversion O; inversion S; inversion N; inversion A; subst. rewrite mp_emits_app, Ht by auto. cbn [rbind mp_out]. rewrite IH by auto.
          rewrite app_assoc. reflexivity. }
      unfold mp_put. cbn [mp_buf mp_out]. rewrite K. cbn [rbind mp_emits mp_emit mp_buf packed]. rewrite <- app_assoc. reflexivity.
  - cbn [announced] in A. destruct A as [A|[-> A]].
    + erewrite (withheld (Datatypes.S f) o (TMap n l)); [|exact O|reflexivity|right; split; reflexivity|exact A|].
      * rewrite counted_exact by exact N. rewrite direct by auto. reflexivity.
      * apply tree_ok_map in O as [_ O]. apply held_map, O.
    + apply tree_ok_map in O as [_ O]. cbn [small] in S. apply all_map in S. cbn [narrow] in N. destruct N as [_ N]. apply all_map in N.
      apply all_map in A.
      cbn [calls mp_emits]. cbn [mp_emit mp_buf]. destruct (Z.ltb_spec (Z.of_nat (List.length l)) 0); [lia|]. cbn [rbind].
      rewrite mp_emits_app. replace (Z.to_N (Z.of_nat (List.length l))) with (N.of_nat (List.length l)) by lia.
      assert (K : forall o, mp_emits (Datatypes.S (Datatypes.S f)) (MP None o) (flat_map (fun kv => calls (fst kv) ++ calls (snd kv)) l)
          = Ok (MP None (o ++ flat_map (fun kv => packed (fst kv) ++ packed (snd kv)) l))).
      { clear -IH O S N A. induction IH as [|t l [Hk Hv] _ IH]; intros o; cbn [flat_map].
        - cbn. rewrite app_nil_r. reflexivity.
        - inversion O as [|? ? [? ?]]; inversion S as [|? ? [? ?]]; inversion N as [|? ? [? ?]]; inversion A as [|? ? [? ?]]; subst.
          rewrite <- app_assoc, mp_emits_app, Hk by auto. cbn [rbind mp_out]. rewrite mp_emits_app, Hv by auto. cbn [rbind mp_out]. rewrite IH by auto.
          rewrite <- !app_assoc. reflexivity. }
      unfold mp_put. cbn [mp_buf mp_out]. rewrite K. cbn [rbind mp_emits mp_emit mp_buf packed]. rewrite <- app_assoc. reflexivity.
Qed.
Print Assumptions C42_counts_partial.

(** C42 is false for a list of 2^31 entries whose length is withheld: each playback
    announces a negative length, so the emitter records it again, without end (in C++ the
    recursion overflows the stack). *)
Theorem C42_count_refuted : exists l, Forall (eq (TScalar EvNull)) l /\ N.of_nat (List.length l) = 2^31 /\
  forall fuel, mp_emits fuel mp_new (calls (TList (-1) l)) = Fuel.
Proof.
  assert (K : forall n, N.of_nat n = 2^31 -> exists l, Forall (eq (TScalar EvNull)) l /\ N.of_nat (List.length l) = 2^31).
  { intros n Hn. exists (repeat (TScalar EvNull) n). rewrite repeat_length. split; [|exact Hn].
    clear Hn. induction n; cbn [repeat]; constructor; auto. }
  destruct (K _ (N2Nat.id (2^31))) as [l [AL LE]]. clear K. exists l. split; [exact AL|]. split; [exact LE|].
  assert (FO : Forall tree_ok l) by (eapply Forall_impl; [|exact AL]; intros t <-; exact I).
  assert (C : List.map counted l = l).
  { clear -AL. induction AL as [|t l <- _ IH]; [reflexivity|]. cbn [List.map counted]. rewrite IH. reflexivity. }
  intros fuel. assert (G : forall n, (n < 0)%Z -> mp_emits fuel mp_new (calls (TList n l)) = Fuel); [|apply G; lia].
  induction fuel as [|f IH]; intros n Hn; [reflexivity|].
  assert (O : tree_ok (TList n l)) by (apply tree_ok_list; split; [rewrite LE; reflexivity|exact FO]).
  unfold mp_new in *. erewrite (withheld f [] (TList n l)); [|exact O|reflexivity|left; split; reflexivity|exact Hn|apply held_list, FO].
  cbn [counted]. rewrite C, LE. apply IH. reflexivity.
Qed.
Print Assumptions C42_count_refuted.

(** A case: {"a":[1,[],"xy"]} with lengths withheld inside an announced list. *)
Definition pack_demo : tree :=
  TList 2 [TMap (-1) [(TScalar (EvStr (s2b "a")), TList 99 [TScalar (EvInt 1); TList (-1) []; TScalar (EvStr (s2b "xy"))])];
           TScalar (EvBlob [s2b "p"; s2b "q"])].
Ltac tree_cases := repeat match goal with
    | |- _ /\ _ => split
    | |- True => exact I | |- _ < _ => reflexivity | |- ~ In _ _ => intros [E|[]]; discriminate E | |- _ <> _ => discriminate
    | |- _ \/ _ => first [left; reflexivity | right]
    | |- (_ = _)%Z => reflexivity
    | |- _ => progress cbn [tree_ok narrow small small_scalar announced scalar_ok fst snd List.length] end.
Example pack_demo_ok : tree_ok pack_demo /\ narrow pack_demo /\ small pack_demo /\ announced pack_demo.
Proof. unfold pack_demo. tree_cases. intros [E|[E|[]]]; discriminate E. Qed.
Example pack_demo_out : mp_emits 2 mp_new (calls pack_demo) = Ok (MP None
  (PArray 2 :: PMap 1 :: PRaw 1 :: PByte "a" :: PArray 3 :: PInt 1 :: PArray 0 :: PRaw 2 :: PByte "x" :: PByte "y" ::
   PRaw 7 :: List.map PByte (bchr 0 :: s2b "BLOBpq"))%char).
Proof. vm_compute. reflexivity. Qed.

(** ** Round trip *)
Import P_JSONRound P_Builder.

(** Nesting of non-empty containers. *)
Fixpoint depth (v : value) : nat :=
  match v with
  | VList [] | VMap [] => 0
  | VList l => S (fold_right Nat.max 0%nat (List.map depth l))
  | VMap m => S (fold_right Nat.max 0%nat (List.map (fun kv => depth (snd kv)) m))
  | _ => 0
  end.

(** Sizes MessagePack can carry. *)
Fixpoint packable (v : value) : Prop :=
  match v with
  | VStr s => N.of_nat (List.length s) < 2^32
  | VBlob b => N.of_nat (5 + List.length (List.concat b)) < 2^32
  | VList l => N.of_nat (List.length l) < 2^31 /\
      (fix go l := match l with [] => True | x :: t => packable x /\ go t end) l
  | VMap m => N.of_nat (List.length m) < 2^31 /\
      (fix go m := match m with [] => True
                   | kv :: t => (N.of_nat (List.length (fst kv)) < 2^32 /\ packable (snd kv)) /\ go t end) m
  | _ => True
  end.

(** The tree of calls of a Variant, and the Variant as MessagePack gives it back. *)
Fixpoint vcalls (v : value) : tree :=
  match v with
  | VNull => TScalar EvNull
  | VBool b => TScalar (if b then EvTrue else EvFalse)
  | VInt z => TScalar (EvInt z)
  | VUns n => TScalar (EvUns n)
  | VFlt x => TScalar (EvFlt (d_of_ld x))
  | VStr s => TScalar (EvStr (c_str s))
  | VList l => TList (int_of_size (List.length l)) (List.map vcalls l)
  | VMap m => TMap (int_of_size (List.length m)) (List.map (fun kv => (TScalar (EvStr (c_str (fst kv))), vcalls (snd kv))) m)
  | VBlob b => TScalar (EvBlob b)
  end.

Fixpoint norm (v : value) : value :=
  match v with
  | VInt z => if (z <? 0)%Z then VInt z else VUns (Z.to_N z)
  | VList l => VList (List.map norm l)
  | VMap m => VMap (List.map (fun kv => (fst kv, norm (snd kv))) m)
  | VBlob b => VBlob [List.concat b]
  | _ => v
  end.

Lemma all_list_v (P : value -> Prop) l : (fix go l := match l with [] => True | x :: t => P x /\ go t end) l <-> Forall P l.
Proof. induction l as [|x l IH]; [split; auto|]. rewrite IH. split; [intros [? ?]; constructor; auto|inversion 1; auto]. Qed.
Lemma all_map_v (P : bytes -> Prop) (Q : value -> Prop) m :
  (fix go m := match m with [] => True | kv :: t => (P (fst kv) /\ Q (snd kv)) /\ go t end) m <-> Forall (fun kv : bytes * value => P (fst kv) /\ Q (snd kv)) m.
Proof. induction m as [|x l IH]; [split; auto|]. rewrite IH. split; [intros [? ?]; constructor; auto|inversion 1; auto]. Qed.

Lemma emit_vcalls v : emit_value v = calls (vcalls v).
Proof.
  induction v as [|c|z|n|x|s|l IH|m IH|c] using value_ind'; try reflexivity.
  - cbn [emit_value vcalls calls]. f_equal. f_equal. induction IH as [|x l Hx _ IHl]; cbn; [reflexivity|]. congruence.
  - cbn [emit_value vcalls calls]. f_equal. f_equal. induction IH as [|x l Hx _ IHl]; cbn; [reflexivity|]. rewrite Hx, IHl. reflexivity.
Qed.

Lemma int_of_size_small n : N.of_nat n < 2^31 -> int_of_size n = Z.of_nat n.
Proof. unfold int_of_size. intros H. change (2^31)%Z with 2147483648%Z. change (2^32)%Z with 4294967296%Z. rewrite Z.mod_small; lia. Qed.

Lemma mp_emits_value f o v : faithful v -> packable v -> 
  mp_emits (S f) (MP None o) (emit_value v) = Ok (MP None (o ++ packed (vcalls v))).
Proof.
  revert o. induction v as [|c|z|n|x|s|l IH|m IH|c] using value_ind'; intros o F K; try reflexivity.
  - destruct c; reflexivity.
  - cbn in F, K. cbn [emit_value mp_emits mp_emit mp_buf rbind mp_put mp_out mp_scalar vcalls packed packed_scalar].
    rewrite EventBufferProofs.c_str_id by exact F. rewrite wrap32_small by exact K. reflexivity.
  - cbn [packable] in K. destruct K as [K1 K2]. apply all_list_v in K2. cbn [faithful] in F. apply all_list_v in F.
    cbn [emit_value]. rewrite int_of_size_small by exact K1. cbn [mp_emits mp_emit mp_buf].
    destruct (Z.ltb_spec (Z.of_nat (List.length l)) 0); [lia|]. cbn [rbind]. unfold mp_put. cbn [mp_buf mp_out].
    replace (Z.to_N (Z.of_nat (List.length l))) with (N.of_nat (List.length l)) by lia.
    assert (L : forall o, mp_emits (S f) (MP None o) (flat_map emit_value l) = Ok (MP None (o ++ flat_map packed (List.map vcalls l)))).
    { clear -IH F K2. induction IH as [|x l Hx _ IH]; intros o; cbn [flat_map List.map]; [cbn; now rewrite app_nil_r|].
      inversion F; inversion K2; subst. rewrite mp_emits_app, Hx by auto. cbn [rbind]. rewrite IH by auto. now rewrite app_assoc. }
    rewrite mp_emits_app, L. cbn [rbind mp_emits mp_emit mp_buf vcalls packed]. rewrite map_length, <- app_assoc. reflexivity.
  - cbn [packable] in K. destruct K as [K1 K2]. apply (all_map_v (fun k => N.of_nat (List.length k) < 2^32)) in K2. cbn [faithful] in F. apply all_map_v in F.
    cbn [emit_value]. rewrite int_of_size_small by exact K1. cbn [mp_emits mp_emit mp_buf].
    destruct (Z.ltb_spec (Z.of_nat (List.length m)) 0); [lia|]. cbn [rbind]. unfold mp_put. cbn [mp_buf mp_out].
    replace (Z.to_N (Z.of_nat (List.length m))) with (N.of_nat (List.length m)) by lia.
    assert (L : forall o, mp_emits (S f) (MP None o) (flat_map (fun kv => EvStr (c_str (fst kv)) :: emit_value (snd kv)) m)
       = Ok (MP None (o ++ flat_map (fun kv => packed (fst kv) ++ packed (snd kv)) (List.map (fun kv => (TScalar (EvStr (c_str (fst kv))), vcalls (snd kv))) m)))).
    { clear -IH F K2. induction IH as [|x l Hx _ IH]; intros o; cbn [flat_map List.map]; [cbn; now rewrite app_nil_r|].
      inversion F as [|? ? [F1 F2]]; inversion K2 as [|? ? [Q1 Q2]]; subst. cbn [app mp_emits mp_emit mp_buf]. unfold mp_put. cbn [rbind mp_buf mp_out mp_scalar].
      rewrite EventBufferProofs.c_str_id by exact F1. rewrite wrap32_small by exact Q1.
      rewrite mp_emits_app, Hx by auto. cbn [rbind]. rewrite IH by auto. cbn [fst snd packed packed_scalar]. rewrite <- !app_assoc. reflexivity. }
    rewrite mp_emits_app, L. cbn [rbind mp_emits mp_emit mp_buf vcalls packed]. rewrite map_length, <- app_assoc. reflexivity.
  - cbn [packable] in K. cbn [emit_value mp_emits mp_emit mp_buf rbind mp_put mp_out vcalls packed]. do 3 f_equal.
    cbn [mp_scalar packed_scalar]. rewrite total_length_small by lia. rewrite wrap32_small by lia.
    replace (N.of_nat (List.length (List.concat c)) + 5) with (N.of_nat (5 + List.length (List.concat c))) by lia.
    f_equal. unfold pbytes, magic. rewrite pbytes_concat. cbn [List.map app]. rewrite map_app. reflexivity.
Qed.

(** ** Unpacking *)

Lemma unpack_app k u a c : unpack k u (a ++ c) = do u1 <- unpack k u a; unpack k u1 c.
Proof. revert u. induction a as [|e a IH]; intros u; [reflexivity|]. cbn [app unpack]. destruct (unpack_token k u e); cbn [rbind]; auto. Qed.

Lemma unpack_body k fs cs n s done : N.of_nat (List.length (done ++ s)) = n -> s <> [] ->
  unpack k (Unp fs (Some (n, done)) cs false) (List.map PByte s) = Ok (object_done fs (cs ++ [BScalar (raw_value (done ++ s))])).
Proof.
  revert done. induction s as [|c s IH]; intros done H N; [congruence|]. cbn [List.map unpack unpack_token m_done m_raw m_frames m_calls].
  destruct s as [|c2 s].
  - rewrite H, N.eqb_refl. reflexivity.
  - destruct (N.eqb_spec (N.of_nat (List.length (done ++ [c]))) n) as [E|E].
    { rewrite !app_length in *. cbn [List.length] in *. lia. }
    cbn [rbind]. rewrite IH; [rewrite <- app_assoc; reflexivity| |discriminate]. rewrite <- app_assoc. exact H.
Qed.

Lemma unpack_raw k fs cs s : unpack k (Unp fs None cs false) (PRaw (N.of_nat (List.length s)) :: List.map PByte s)
  = Ok (object_done fs (cs ++ [BScalar (raw_value s)])).
Proof.
  cbn [unpack unpack_token m_done m_raw m_frames m_calls]. destruct (N.eqb_spec (N.of_nat (List.length s)) 0) as [E|E].
  - destruct s; [reflexivity|cbn [List.length] in E; lia].
  - cbn [rbind]. rewrite unpack_body; [reflexivity|reflexivity|]. intros ->. apply E. reflexivity.
Qed.

Lemma raw_string s : no_nul s -> raw_value s = VStr s.
Proof.
  intros H. unfold raw_value. destruct (beqb (firstn 5 s) magic) eqn:E; [|rewrite andb_false_r; reflexivity].
  apply beqb_eq in E. exfalso. apply H. destruct s as [|c s]; [discriminate|]. cbn [firstn] in E. unfold magic in E. injection E as E _.
  left. exact E.
Qed.

Lemma raw_blob b : raw_value (magic ++ b) = VBlob [b].
Proof.
  unfold raw_value. rewrite app_length. destruct (N.leb_spec 5 (N.of_nat (List.length magic + List.length b))) as [L|L].
  - reflexivity.
  - change (List.length magic) with 5%nat in L. lia.
Qed.

Lemma dec_count c : 1 <= c < 2^64 -> wrap64 (c + (2^64 - 1)) = c - 1.
Proof. intros H. unfold wrap64. replace (c + (2^64 - 1)) with (c - 1 + 1 * 2^64) by lia. rewrite N.mod_add by lia. apply N.mod_small. lia. Qed.

Lemma unpack_elems k fs (items : list (list ptok)) (evs : list (list bev)) : forall n cs,
  N.of_nat (List.length items) = n -> 1 <= n < 2^64 ->
  Forall2 (fun it ev => forall fs' cs, (List.length fs' = S (List.length fs)) -> unpack k (Unp fs' None cs false) it = Ok (object_done fs' (cs ++ ev))) items evs ->
  unpack k (Unp (FArray n :: fs) None cs false) (List.concat items) = Ok (object_done fs (cs ++ List.concat evs ++ [BEndList])).
Proof.
  revert evs. induction items as [|it items IH]; intros evs n cs Hn Hb F; [cbn in Hn; lia|].
  inversion F as [|? ev ? evs' F1 F2]; subst. cbn [List.concat]. rewrite unpack_app, F1 by reflexivity. cbn [rbind object_done].
  rewrite dec_count by exact Hb. cbn [List.length]. destruct items as [|it2 items].
  - inversion F2; subst. cbn [List.length List.concat]. cbn [N.of_nat Pos.of_succ_nat N.sub Pos.sub_mask N.eqb]. cbn [unpack]. rewrite app_nil_r, <- app_assoc. reflexivity.
  - destruct (N.eqb_spec (N.of_nat (S (List.length (it2 :: items))) - 1) 0); [cbn [List.length] in *; lia|].
    rewrite (IH evs'); auto; cbn [List.length] in *; try lia. rewrite <- !app_assoc. reflexivity.
Qed.

Lemma unpack_entries k fs (items : list (list ptok * list ptok)) (evs : list (list bev * list bev)) : forall n cs,
  N.of_nat (List.length items) = n -> 1 <= n < 2^64 ->
  Forall2 (fun it ev => (forall fs' cs, (List.length fs' = S (List.length fs)) -> unpack k (Unp fs' None cs false) (fst it) = Ok (object_done fs' (cs ++ fst ev))) /\
                        (forall fs' cs, (List.length fs' = S (List.length fs)) -> unpack k (Unp fs' None cs false) (snd it) = Ok (object_done fs' (cs ++ snd ev)))) items evs ->
  unpack k (Unp (FMap n true :: fs) None cs false) (flat_map (fun it => fst it ++ snd it) items)
    = Ok (object_done fs (cs ++ flat_map (fun ev => fst ev ++ snd ev) evs ++ [BEndMap])).
Proof.
  revert evs. induction items as [|it items IH]; intros evs n cs Hn Hb F; [cbn in Hn; lia|].
  inversion F as [|? ev ? evs' [F0 F1] F2]; subst. cbn [flat_map]. rewrite unpack_app, unpack_app, F0 by reflexivity. cbn [rbind object_done].
  rewrite F1 by reflexivity. cbn [rbind object_done]. 
  rewrite dec_count by exact Hb. cbn [List.length]. destruct items as [|it2 items].
  - inversion F2; subst. cbn [List.length flat_map]. cbn [N.of_nat Pos.of_succ_nat N.sub Pos.sub_mask N.eqb]. cbn [unpack]. rewrite app_nil_r, <- !app_assoc. reflexivity.
  - destruct (N.eqb_spec (N.of_nat (S (List.length (it2 :: items))) - 1) 0); [cbn [List.length] in *; lia|].
    rewrite (IH evs'); auto; cbn [List.length] in *; try lia. rewrite <- !app_assoc. reflexivity.
Qed.

Lemma depth_elem l x k : In x l -> (fold_right Nat.max 0%nat (List.map depth l) <= k)%nat -> (depth x <= k)%nat.
Proof. induction l as [|y l IH]; cbn; [intros []|]. intros [->|H] L; [lia|]. apply IH; [exact H|lia]. Qed.
Lemma depth_entry (m : list (bytes * value)) x k : In x m -> (fold_right Nat.max 0%nat (List.map (fun kv => depth (snd kv)) m) <= k)%nat -> (depth (snd x) <= k)%nat.
Proof. induction m as [|y l IH]; cbn; [intros []|]. intros [->|H] L; [lia|]. apply IH; [exact H|lia]. Qed.

Lemma unpack_value k v : faithful v -> packable v -> forall fs cs, (List.length fs + depth v <= k)%nat ->
  unpack k (Unp fs None cs false) (packed (vcalls v)) = Ok (object_done fs (cs ++ List.map relay (emit_value (norm v)))).
Proof.
  induction v as [|c|z|n|x|s|l IH|m IH|c] using value_ind'; intros F K fs cs D; try reflexivity.
  - destruct c; reflexivity.
  - cbn. destruct (z <? 0)%Z; reflexivity.
  - cbn [vcalls packed packed_scalar norm emit_value List.map relay]. cbn in F. rewrite (EventBufferProofs.c_str_id s F).
    rewrite unpack_raw, raw_string by exact F. reflexivity.
  - cbn [packable] in K. destruct K as [K1 K2]. apply all_list_v in K2. cbn [faithful] in F. apply all_list_v in F.
    cbn [vcalls packed norm emit_value List.map relay unpack unpack_token m_done m_raw m_frames m_calls]. rewrite map_length.
    destruct l as [|x l]; [reflexivity|]. destruct (N.eqb_spec (N.of_nat (List.length (x :: l))) 0); [cbn [List.length] in *; lia|].
    cbn [depth] in D. destruct (Nat.leb_spec k (List.length fs)); [lia|]. cbn [rbind].
    set (l' := x :: l) in *. assert (NE : (1 <= List.length l')%nat) by (cbn; lia). clearbody l'.
    rewrite flat_map_concat_map. erewrite (unpack_elems k fs _ (List.map (fun v => List.map relay (emit_value (norm v))) l')); [ | |lia|].
    + rewrite map_app. cbn [List.map relay]. do 2 f_equal. rewrite <- app_assoc. cbn [app]. do 3 f_equal.
      rewrite flat_map_concat_map, concat_map, !map_map. reflexivity.
    + rewrite !map_length. reflexivity.
    + clear -IH F K2 D. rewrite map_map.
      assert (A : forall l0, incl l0 l' -> Forall2 (fun it ev => forall fs' cs, List.length fs' = S (List.length fs) -> unpack k (Unp fs' None cs false) it = Ok (object_done fs' (cs ++ ev)))
          (List.map (fun v => packed (vcalls v)) l0) (List.map (fun v => List.map relay (emit_value (norm v))) l0)).
      { induction l0 as [|v l0 IH0]; intros I0; cbn [List.map]; constructor; [|apply IH0; intros ? ?; apply I0; right; assumption].
        intros fs' cs L'. assert (Iv : In v l') by (apply I0; left; reflexivity).
        rewrite Forall_forall in IH, F, K2. apply IH; auto. pose proof (depth_elem l' v (k - S (List.length fs)) Iv ltac:(lia)). lia. }
      apply A, incl_refl.
  - cbn [packable] in K. destruct K as [K1 K2]. apply (all_map_v (fun k => N.of_nat (List.length k) < 2^32)) in K2. cbn [faithful] in F. apply all_map_v in F.
    cbn [vcalls packed norm emit_value List.map relay unpack unpack_token m_done m_raw m_frames m_calls]. rewrite map_length.
    destruct m as [|x l]; [reflexivity|]. destruct (N.eqb_spec (N.of_nat (List.length (x :: l))) 0); [cbn [List.length] in *; lia|].
    cbn [depth] in D. destruct (Nat.leb_spec k (List.length fs)); [lia|]. cbn [rbind].
    set (l' := x :: l) in *. assert (NE : (1 <= List.length l')%nat) by (cbn; lia). clearbody l'.
    set (its := List.map (fun kv => (packed (TScalar (EvStr (c_str (fst kv)))), packed (vcalls (snd kv)))) l').
    set (evs := List.map (fun kv : bytes * value => ([BScalar (VStr (fst kv))], List.map relay (emit_value (norm (snd kv))))) l').
    assert (E1 : flat_map (fun kv => packed (fst kv) ++ packed (snd kv)) (List.map (fun kv => (TScalar (EvStr (c_str (fst kv))), vcalls (snd kv))) l')
                 = flat_map (fun it => fst it ++ snd it) its).
    { unfold its. rewrite !flat_map_concat_map, !map_map. reflexivity. }
    rewrite E1. erewrite (unpack_entries k fs its evs); [ | |lia|].
    + rewrite map_app. cbn [List.map relay]. do 2 f_equal. rewrite <- app_assoc. cbn [app]. do 3 f_equal.
      unfold evs. rewrite !flat_map_concat_map, concat_map, !map_map. f_equal. apply map_ext_in. intros [kk vv] Ikv. cbn [fst snd List.map relay].
      rewrite Forall_forall in F. destruct (F _ Ikv) as [Fk _]. cbn [fst] in Fk. rewrite EventBufferProofs.c_str_id by exact Fk. reflexivity.
    + unfold its. rewrite !map_length. reflexivity.
    + clear -IH F K2 D. unfold its, evs.
      assert (A : forall l0, incl l0 l' -> Forall2 (fun it ev => (forall fs' cs, (List.length fs' = S (List.length fs)) -> unpack k (Unp fs' None cs false) (fst it) = Ok (object_done fs' (cs ++ fst ev))) /\
                        (forall fs' cs, (List.length fs' = S (List.length fs)) -> unpack k (Unp fs' None cs false) (snd it) = Ok (object_done fs' (cs ++ snd ev))))
          (List.map (fun kv => (packed (TScalar (EvStr (c_str (fst kv)))), packed (vcalls (snd kv)))) l0)
          (List.map (fun kv : bytes * value => ([BScalar (VStr (fst kv))], List.map relay (emit_value (norm (snd kv))))) l0)).
      { induction l0 as [|[kk v] l0 IH0]; intros I0; cbn [List.map]; constructor; [|apply IH0; intros ? ?; apply I0; right; assumption].
        assert (Iv : In (kk, v) l') by (apply I0; left; reflexivity). rewrite Forall_forall in IH, F, K2.
        specialize (F _ Iv). specialize (K2 _ Iv). cbn [fst snd] in *. split; intros fs' cs L'.
        - cbn [packed packed_scalar]. rewrite EventBufferProofs.c_str_id by apply F. rewrite unpack_raw, raw_string by apply F. reflexivity.
        - apply (IH _ Iv); [apply F|apply K2|]. pose proof (depth_entry l' (kk, v) (k - S (List.length fs)) Iv ltac:(lia)) as Q. cbn [snd] in Q |- *. lia. }
      apply A, incl_refl.
  - cbn [vcalls packed packed_scalar norm emit_value List.map relay].
    replace (5 + List.length (List.concat c))%nat with (List.length (magic ++ List.concat c)) by (rewrite app_length; reflexivity).
    change (bchr 0 :: s2b "BLOB" ++ List.concat c) with (magic ++ List.concat c).
    rewrite unpack_raw, raw_blob. reflexivity.
Qed.

Lemma norm_same v : vok v -> same v (norm v).
Proof.
  induction v as [|c|z|n|x|s|l IH|m IH|c] using value_ind'; intros V; cbn [norm]; try (constructor; fail).
  - destruct (Z.ltb_spec z 0); apply (SInt _ _ z); try reflexivity. cbn. f_equal. lia.
  - apply (SInt _ _ (Z.of_N n)); reflexivity.
  - apply SList. apply vok_list in V. induction IH as [|x l Hx _ IHl]; cbn; constructor; inversion V; subst; auto.
  - apply SMap. apply vok_map in V as [_ V]. induction IH as [|x l Hx _ IHl]; cbn; constructor; inversion V; subst; auto.
  - apply SBlob. cbn. rewrite app_nil_r. reflexivity.
Qed.

Lemma norm_keys m : mkeys (List.map (fun kv : bytes * value => (fst kv, norm (snd kv))) m) = mkeys m.
Proof. unfold mkeys. rewrite map_map. reflexivity. Qed.

Lemma norm_sorted m : msorted m -> msorted (List.map (fun kv : bytes * value => (fst kv, norm (snd kv))) m).
Proof.
  induction m as [|[k v] m IH]; cbn; [auto|]. intros [S1 S2]. split; [|auto]. intros k'. rewrite norm_keys. apply S1.
Qed.

Lemma norm_vok v : vok v -> vok (norm v).
Proof.
  induction v as [|c|z|n|x|s|l IH|m IH|c] using value_ind'; intros V; cbn [norm]; try exact V; try exact I.
  - destruct (Z.ltb_spec z 0); [exact V|]. cbn in *. lia.
  - apply vok_list in V. apply vok_list. induction IH as [|x l Hx _ IHl]; cbn; constructor; inversion V; subst; auto.
  - apply vok_map in V as [S V]. apply vok_map. split; [apply norm_sorted, S|].
    clear S. induction IH as [|x l Hx _ IHl]; cbn; constructor; inversion V; subst; auto.
Qed.

Lemma norm_faithful v : faithful v -> faithful (norm v).
Proof.
  induction v as [|c|z|n|x|s|l IH|m IH|c] using value_ind'; intros V; cbn [norm]; try exact V; try exact I.
  - destruct (Z.ltb_spec z 0); exact I.
  - apply faithful_list in V. apply faithful_list. induction IH as [|x l Hx _ IHl]; cbn; constructor; inversion V; subst; auto.
  - apply faithful_map in V. apply faithful_map. induction IH as [|x l Hx _ IHl]; cbn; constructor; inversion V; subst; auto. intuition.
Qed.

(** C45.  What the MessagePack emitter writes for any Variant (scalar, list or map)
    reads back as an equal Variant, provided the nesting of non-empty containers stays
    within what the unpacker allows; non-negative integers come back as unsigned.
    _partial: no NUL in strings and keys, floats that are finite doubles, and the size
    limits of [packable]; the packed bytes themselves belong to the msgpack library. *)
Theorem C45_roundtrip_partial : forall limit fuel v, vok v -> faithful v -> packable v -> (depth v <= limit)%nat ->
  exists toks v', mp_emits (S fuel) mp_new (emit_value v) = Ok (MP None toks) /\
    mp_parse limit toks = Ok v' /\ same v v'.
Proof.
  intros k f v V F K D. exists (packed (vcalls v)), (norm v).
  split; [exact (mp_emits_value f [] v F K)|]. split; [|apply norm_same, V].
  unfold mp_parse. rewrite unpack_value by (auto; cbn; lia). cbn [rbind object_done m_done m_calls].
  assert (E : ([BBeginDoc] ++ List.map relay (emit_value (norm v))) ++ [BEndDoc] = List.map relay (EvBeginDoc :: emit_value (norm v) ++ [EvEndDoc])).
  { cbn [List.map relay app]. rewrite map_app. reflexivity. }
  rewrite E. destruct (C32_builder_inverts_partial (norm v) (norm_vok v V) (norm_faithful v F)) as [b [B1 [B2 _]]].
  rewrite B1. cbn [rbind]. rewrite B2. reflexivity.
Qed.
Print Assumptions C45_roundtrip_partial.

(** C45 is false for a string that holds a NUL. *)
Theorem C45_nul_refuted : exists v toks v', vok v /\ mp_emits 1 mp_new (emit_value v) = Ok (MP None toks) /\
  mp_parse 16 toks = Ok v' /\ ~ same v v'.
Proof.
  exists (VStr [ "a"; bchr 0; "b"]%char). eexists. eexists. split; [exact I|]. split; [reflexivity|]. split; [reflexivity|].
  intros H. inversion H; subst; discriminate.
Qed.
Print Assumptions C45_nul_refuted.

(** A case: {"a":[1,-2,true,1.5],"b":{},"c":blob}. *)
Definition pack_value : value :=
  VMap [(s2b "a", VList [VInt 1; VInt (-2); VBool true; VFlt (S754_finite false (3 * 2^62) (-63))]);
        (s2b "b", VMap []); (s2b "c", VBlob [s2b "xy"; s2b "z"])].
Example pack_value_ok : vok pack_value /\ faithful pack_value /\ packable pack_value /\ (depth pack_value <= 16)%nat.
Proof.
  unfold pack_value. cbn [vok faithful packable msorted mkeys List.map fst snd depth fold_right].
  split; [|split; [|split]]; [| | |lia].
  - repeat split; try lia; try reflexivity; intros k H; cbn in H; intuition; subst; reflexivity.
  - assert (NN : forall c, no_nul [c] \/ c = bchr 0).
    { intros c. destruct (aeqb c (bchr 0)) eqn:E; [right; apply aeqb_eq, E|left; intros [X|[]]; apply aeqb_neq in E; congruence]. }
    repeat split; try (intros [E|[]]; discriminate E).
    exists (S754_finite false (3 * 2^51) (-52)). repeat split; reflexivity.
  - repeat split.
Qed.
Example pack_value_read : exists toks, mp_emits 1 mp_new (emit_value pack_value) = Ok (MP None toks) /\
  mp_parse 16 toks = Ok (VMap [(s2b "a", VList [VUns 1; VInt (-2); VBool true; VFlt (S754_finite false (3 * 2^62) (-63))]);
        (s2b "b", VMap []); (s2b "c", VBlob [s2b "xyz"])]).
Proof. eexists. split; vm_compute; reflexivity. Qed.
