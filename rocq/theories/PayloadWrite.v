(** Proofs about src/Payload.cc: what the header is. *)
From Verif Require Import Base CNum Float Value ValueOps Path Emit Numeric Blob ParserInput ParserInputProofs JSONEmitter Payload.
Open Scope N_scope.

(** Paths of keys. *)
Definition keys (ks : list bytes) : path := List.map PKey ks.
Definition pkeys (p : option (list bytes)) : option path := option_map keys p.
Definition kstep (p : option (list bytes)) (k : bytes) : option (list bytes) :=
  match p with Some (j :: r) => if beqb k j then Some r else None | _ => None end.
Fixpoint stub (n : N) (ks : list bytes) : value := match ks with [] => VUns n | k :: r => VMap [(k, stub n r)] end.
(** The path goes through maps as far as there is anything. *)
Fixpoint okk (ks : list bytes) (v : value) : Prop :=
  match ks with [] => True | k :: r => exists m, v = VMap m /\ forall w, mget k m = Some w -> okk r w end.
Definition oko (p : option (list bytes)) (v : value) : Prop := match p with Some ks => okk ks v | None => True end.

(** The document that is emitted: without the payload, with the length, which comes last in
    its map when it was not there. *)
Definition added (n : N) (lp : option (list bytes)) (m : list (bytes * value)) : list (bytes * value) :=
  match lp with Some (l :: lr) => match mget l m with None => [(l, stub n lr)] | Some _ => [] end | _ => [] end.
Fixpoint head (n : N) (v : value) (lp dp : option (list bytes)) : value :=
  match lp, dp with
  | Some [], _ => VUns n
  | _, Some [] => VNull
  | _, _ =>
      match v with
      | VMap m => VMap (flat_map (fun kv => match kstep dp (fst kv) with
                                            | Some [] => []
                                            | d => [(fst kv, head n (snd kv) (kstep lp (fst kv)) d)]
                                            end) m ++ added n lp m)
      | _ => v
      end
  end.

Definition uncount (e : eev) : eev :=
  match e with EvBeginMap _ => EvBeginMap 0 | EvBeginList _ => EvBeginList 0 | e => e end.
Definition like (a : calls) (es : list eev) : Prop := snd a = None /\ List.map uncount (fst a) = List.map uncount es.

Lemma like_then a b x y : like a x -> like b y -> like (ethen a b) (x ++ y).
Proof. intros [A1 A2] [B1 B2]. unfold like, ethen. rewrite A1. cbn [fst snd]. rewrite !map_app. split; congruence. Qed.
Lemma like_call e f : uncount e = uncount f -> like (ecall e) [f].
Proof. intros H. split; [reflexivity|]. cbn. now rewrite H. Qed.
Lemma like_nil : like ([], None) [].
Proof. split; reflexivity. Qed.
Lemma like_refl es : like (es, None) es.
Proof. split; reflexivity. Qed.

Lemma vset_stub n ks : vset VNull (keys ks) (VUns n) = Some (stub n ks).
Proof. induction ks as [|k ks IH]; [reflexivity|]. cbn [keys List.map vset vchild stub]. fold (keys ks). rewrite IH. reflexivity. Qed.
Lemma emit_length_stub n ks : like (emit_length n (keys ks)) (emit_value (stub n ks)).
Proof.
  destruct ks as [|k ks]; [apply like_call; reflexivity|]. unfold emit_length. rewrite vset_stub. cbn [keys List.map].
  apply like_refl.
Qed.
Lemma step_key_keys p k : step_key (pkeys p) k = pkeys (kstep p k).
Proof. destruct p as [[|j r]|]; [reflexivity| |reflexivity]. cbn. destruct (beqb k j); reflexivity. Qed.

Definition payload_entries (n : N) (lp dp : option path) : list (bytes * value) -> calls :=
  fix entries (m : list (bytes * value)) : calls :=
                     match m with
                     | [] => ([], None)
                     | kv :: t =>
                         let data := step_key dp (fst kv) in
                         ethen (match data with
                                | Some [] => ([], None)
                                | _ => ethen (ecall (EvStr (c_str (fst kv)))) (payload_emit n (snd kv) (step_key lp (fst kv)) data)
                                end)
                               (entries t)
                     end.
Definition payload_elems (n : N) (lp dp : option path) : list value -> N -> calls :=
  fix elems (l : list value) (index : N) : calls :=
                     match l with
                     | [] => ([], None)
                     | x :: t => match dp with
                                 | Some (PKey _ :: _) => ([], Some BadPathError)
                                 | _ => ethen (payload_emit n x (step_idx lp index) (step_idx dp index)) (elems t (index + 1))
                                 end
                     end.
Definition emit_entry (kv : bytes * value) : list eev := EvStr (c_str (fst kv)) :: emit_value (snd kv).


Lemma head_none n v : head n v None None = v.
Proof.
  induction v as [|b|z|u|x|s|l IH|m IH|b] using value_ind'; try reflexivity.
  cbn [head added kstep]. rewrite app_nil_r. f_equal.
  induction IH as [|[k x] m Hx _ IHm]; [reflexivity|]. cbn [flat_map fst snd app] in *. rewrite Hx, IHm. reflexivity.
Qed.

Definition inside (p : option (list bytes)) : Prop := match p with Some [] => False | _ => True end.
Definition headkv (n : N) (lp dp : option (list bytes)) (kv : bytes * value) : list (bytes * value) :=
  match kstep dp (fst kv) with Some [] => [] | d => [(fst kv, head n (snd kv) (kstep lp (fst kv)) d)] end.
Lemma head_map n m lp dp : inside lp -> inside dp -> head n (VMap m) lp dp = VMap (flat_map (headkv n lp dp) m ++ added n lp m).
Proof. intros A B. destruct lp as [[|]|], dp as [[|]|]; try contradiction; reflexivity. Qed.

Lemma payload_emit_map n m lp dp : inside lp -> inside dp -> exists c d,
  payload_emit n (VMap m) (pkeys lp) (pkeys dp) =
  ethen (ecall (EvBeginMap c)) (ethen (payload_entries n (pkeys lp) (pkeys dp) m) (ethen d (ecall EvEndMap))) /\
  like d (flat_map emit_entry (added n lp m)).
Proof.
  intros A B. unfold added.
  destruct lp as [[|l lr]|], dp as [[|k dr]|]; try contradiction; (eexists _, _; split; [reflexivity|]); try apply like_nil; cbn [pkeys option_map keys List.map];
    (destruct (mget l m); [apply like_nil|]); cbn [flat_map app]; rewrite app_nil_r;
    apply (like_then _ _ [_] _); try (apply like_call; reflexivity); apply emit_length_stub.
Qed.

Lemma okk_step ks m k x : okk ks (VMap m) -> mget k m = Some x -> forall r, kstep (Some ks) k = Some r -> okk r x.
Proof.
  intros O G r E. destruct ks as [|j ks]; [discriminate|]. cbn in E. destruct (beqb k j) eqn:B; [|discriminate].
  injection E as <-. apply beqb_eq in B. subst j. destruct O as (m' & [= <-] & O). auto.
Qed.
Lemma oko_step p m k x : oko p (VMap m) -> mget k m = Some x -> oko (kstep p k) x.
Proof.
  intros O G. destruct p as [ks|]; [|exact I]. destruct (kstep (Some ks) k) eqn:E; [|exact I]. eapply okk_step; eauto.
Qed.

Lemma payload_emit_like n v : vok v -> forall lp dp, oko lp v -> oko dp v ->
  like (payload_emit n v (pkeys lp) (pkeys dp)) (emit_value (head n v lp dp)).
Proof.
  induction v as [|b|z|u|x|s|l IH|m IH|b] using value_ind'; intros V lp dp Ol Od.
  7: { (* a list *)
    destruct lp as [[|k lr]|]; [apply like_call; reflexivity|destruct Ol as (? & ? & _); discriminate|].
    destruct dp as [[|k dr]|]; [apply like_call; reflexivity|destruct Od as (? & ? & _); discriminate|].
    cbn [pkeys option_map payload_emit head emit_value].
    change (EvBeginList (int_of_size (List.length l)) :: flat_map emit_value l ++ [EvEndList])
      with ([EvBeginList (int_of_size (List.length l))] ++ flat_map emit_value l ++ [EvEndList]).
    apply like_then; [apply like_call; reflexivity|]. apply like_then; [|apply (like_then _ _ [] [EvEndList]); [apply like_nil|apply like_call; reflexivity]].
    apply vok_list in V. fold (payload_elems n None None). generalize 0 at 1. clear Ol Od. revert V.
    induction IH as [|y l Hy _ IHl]; intros V i; [apply like_nil|]. inversion V; subst. cbn [payload_elems flat_map].
    apply like_then; [|apply IHl; assumption]. pose proof (Hy H1 None None I I) as K. rewrite head_none in K. exact K. }
  7: { (* a map *)
    assert (C : inside lp /\ inside dp \/ lp = Some [] \/ dp = Some [] /\ inside lp).
    { destruct lp as [[|]|], dp as [[|]|]; cbn; auto 6. }
    destruct C as [[A B]|[->|[-> A]]].
    2: { apply like_call; reflexivity. }
    2: { destruct lp as [[|]|]; [contradiction|apply like_call; reflexivity..]. }
    rewrite head_map by assumption. destruct (payload_emit_map n m lp dp A B) as (c & d & -> & L). cbn [emit_value].
    set (ents := flat_map (headkv n lp dp) m ++ added n lp m).
    change (EvBeginMap (int_of_size (List.length ents)) :: flat_map (fun kv => EvStr (c_str (fst kv)) :: emit_value (snd kv)) ents ++ [EvEndMap])
      with ([EvBeginMap (int_of_size (List.length ents))] ++ flat_map emit_entry ents ++ [EvEndMap]).
    apply like_then; [apply like_call; reflexivity|]. unfold ents. rewrite flat_map_app, <- app_assoc.
    apply like_then; [|apply like_then; [exact L|apply like_call; reflexivity]].
    apply vok_map in V as [S V].
    assert (P : forall kv, In kv m -> mget (fst kv) m = Some (snd kv)).
    { intros [k x] H. apply In_mget; assumption. }
    clear S L ents c d. assert (G : Forall (fun kv => oko (kstep lp (fst kv)) (snd kv) /\ oko (kstep dp (fst kv)) (snd kv)) m).
    { apply Forall_forall. intros kv H. specialize (P kv H). split; eapply oko_step; eauto. }
    clear P Ol Od. revert V G. induction IH as [|[k x] m Hx _ IHm]; intros V G; [apply like_nil|].
    inversion V as [|? ? V1 V2]; inversion G as [|? ? [G1 G2] G3]; subst. cbn [payload_entries flat_map fst snd] in *.
    rewrite flat_map_app. apply like_then; [|apply IHm; assumption]. rewrite !step_key_keys. unfold headkv. cbn [fst snd].
    specialize (Hx V1 _ _ G1 G2).
    destruct (kstep dp k) as [[|d dr]|]; cbn [pkeys option_map keys List.map flat_map app] in *; [apply like_nil| |];
      rewrite app_nil_r; apply (like_then _ _ [_] _); try (apply like_call; reflexivity); exact Hx. }
  all: destruct lp as [[|k lr]|]; [apply like_call; reflexivity|destruct Ol as (? & ? & _); discriminate|];
    destruct dp as [[|d dr]|]; [apply like_call; reflexivity|destruct Od as (? & ? & _); discriminate|]; apply like_refl.
Qed.
