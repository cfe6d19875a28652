(** What the schema loader does, said about trees. *)
From Verif Require Import Base Float Value Path Uri ValueOps SchemaLoad.
Open Scope N_scope.

(** The base that holds inside an object: its own "id", resolved, or the one around it. *)
Definition base_in (uri : bytes) (m : list (bytes * value)) : bytes :=
  match mget k_id m with Some (VStr t) => resolve_uri uri t | _ => uri end.
Definition is_reference (m : list (bytes * value)) : bool :=
  match mget k_ref m with Some (VStr _) => true | _ => false end.
(** One entry of an object in which the base is [b]; [f] is for what is inside.  The other
    entries of a reference, and "enum", are left as they are. *)
Definition norm_entry (f : value -> value) (b : bytes) (ref : bool) (k : bytes) (x : value) : value :=
  match x with
  | VStr t => if beqb k k_id then VStr b else if beqb k k_ref then VStr (resolve_uri b t) else x
  | _ => if (ref || beqb k k_enum)%bool then x else f x
  end.
(** A schema with every "id" and "$ref" in it made absolute. *)
Fixpoint vnorm (uri : bytes) (v : value) {struct v} : value :=
  match v with
  | VMap m =>
      let b := base_in uri m in
      VMap (List.map (fun kx => (fst kx, norm_entry (vnorm b) b (is_reference m) (fst kx) (snd kx))) m)
  | VList l => VList (List.map (vnorm uri) l)
  | _ => v
  end.

Lemma mget_map_snd {A B} (g : bytes -> A -> B) (m : list (bytes * A)) k :
  mget k (List.map (fun kx => (fst kx, g (fst kx) (snd kx))) m) = match mget k m with Some x => Some (g k x) | None => None end.
Proof. induction m as [|[k' x] m IH]; cbn; auto. destruct (beqb k k') eqn:E; auto. apply beqb_eq in E. subst. reflexivity. Qed.
Lemma msorted_map_snd {A B} (g : bytes -> A -> B) (m : list (bytes * A)) : msorted m -> msorted (List.map (fun kx => (fst kx, g (fst kx) (snd kx))) m).
Proof.
  induction m as [|[k x] m IH]; cbn; auto. intros [A0 B0]. split; auto. intros k' I. apply A0. unfold mkeys in *. rewrite map_map in I. exact I.
Qed.
