(** C28: adding the defaults of a schema. *)
From Verif Require Import Base Value Path ValueOps ParserInput Deserialize DiffRun Schema SchemaSem SchemaProofs Defaults DefaultsSem DefaultsProofs P_Schema.
Open Scope N_scope.

Lemma at_sorted root p : vsorted root -> osorted (vat root p).
Proof. intros S. destruct (vat root p) eqn:A; [eapply vat_sorted; eauto|exact I]. Qed.
Lemma by_place get_schema (SG : forall u s, get_schema u = Ok s -> vsorted s) fuel s root p root' : vsorted s -> vsorted root -> viable root p ->
  defaults get_schema fuel s root p = Ok root' -> exists o, local get_schema fuel s (vat root p) = Ok o /\ write root p o = Ok root' /\ osorted o.
Proof.
  intros Ss Sr V E. destruct (defaults_local get_schema SG fuel s Ss) as [A B]. rewrite (A root p Sr V I) in E.
  destruct (local get_schema fuel s (vat root p)) as [o| | | |] eqn:L; try discriminate. exists o. split; [reflexivity|]. split; [exact E|].
  apply (B _ _ (at_sorted root p Sr) I L).
Qed.

(** ** What is there is kept *)

(** [root] is any document, [p] any place of it that can be assigned to (the whole document, for
    one), [s] any schema and [get_schema] any resolution of references.  Whatever was in the
    document is there afterwards, at the same path: a map is a map (what was in it is in it: that
    is the claim for longer paths), a list a list that is at least as long, anything else the
    same, except that a null may have been replaced. *)
Theorem C28_kept_partial : forall (get_schema : bytes -> res value) (fuel : nat) (s root : value) (p : path) (root' : value),
  (forall u t, get_schema u = Ok t -> vsorted t) -> vsorted s -> vsorted root -> viable root p ->
  defaults get_schema fuel s root p = Ok root' ->
  forall q w, vat root q = Some w -> exists w', vat root' q = Some w' /\ kept w w'.
Proof.
  intros get_schema fuel s root p root' SG Ss Sr V E. destruct (by_place get_schema SG fuel s root p root' Ss Sr V E) as (o & L & W & So).
  assert (K : keeps (vat root p) o).
  { apply (local_rel get_schema SG vsorted (fun _ => True)) with (fuel := fuel) (s := s); auto using keeps_refl, keeps_default, at_sorted.
    - intros m u t _ _ G. eapply SG; eauto.
    - intros m ps k t S K I'. apply vsorted_map in S as [_ S]. apply mget_In in K. rewrite Forall_forall in S. specialize (S _ K). cbn in S. apply vsorted_map in S as [_ S]. rewrite Forall_forall in S. apply (S _ I').
    - intros m l t S K I'. apply vsorted_map in S as [_ S]. apply mget_In in K. rewrite Forall_forall in S. specialize (S _ K). cbn in S. apply vsorted_list in S. rewrite Forall_forall in S. auto.
    - intros m t S K. apply vsorted_map in S as [_ S]. apply mget_In in K. rewrite Forall_forall in S. apply (S _ K).
    - intros m k l t S _ K I'. apply vsorted_map in S as [_ S]. apply mget_In in K. rewrite Forall_forall in S. specialize (S _ K). cbn in S. apply vsorted_list in S. rewrite Forall_forall in S. auto.
    - apply keeps_trans.
    - apply keeps_inner. }
  exact (document_rel keeps root p o root' keeps_refl keeps_inner Sr V K W).
Qed.
Print Assumptions C28_kept_partial.

(** ** What is added comes from the defaults *)

(** Every scalar in the result was there before, at the same path, or is in a default of a schema
    that [s] leads to. *)
Theorem C28_added_partial : forall (get_schema : bytes -> res value) (fuel : nat) (s root : value) (p : path) (root' : value),
  (forall u t, get_schema u = Ok t -> vsorted t) -> vsorted s -> vsorted root -> viable root p ->
  defaults get_schema fuel s root p = Ok root' ->
  forall q w, vat root' q = Some w -> scalar w -> vat root q = Some w \/ from_default get_schema s w.
Proof.
  intros get_schema fuel s root p root' SG Ss Sr V E. destruct (by_place get_schema SG fuel s root p root' Ss Sr V E) as (o & L & W & So).
  assert (K : adds (from_default get_schema s) (vat root p) o).
  { apply (local_rel get_schema SG (fun t => vsorted t /\ reach get_schema s t) (fun x => exists m, reach get_schema s (VMap m) /\ kw "default" m = Some x)) with (fuel := fuel) (s := s); auto using at_sorted.
    - intros t [S _]. exact S.
    - intros m x [_ R] K. eauto.
    - intros m u t [_ R] K G. split; [eapply SG; eauto|eapply reach_ref; eauto].
    - intros m ps k t [S R] K I'. split; [|eapply reach_property; eauto]. apply vsorted_map in S as [_ S]. apply mget_In in K. rewrite Forall_forall in S. specialize (S _ K). cbn in S. apply vsorted_map in S as [_ S]. rewrite Forall_forall in S. apply (S _ I').
    - intros m l t [S R] K I'. split; [|eapply reach_items; eauto]. apply vsorted_map in S as [_ S]. apply mget_In in K. rewrite Forall_forall in S. specialize (S _ K). cbn in S. apply vsorted_list in S. rewrite Forall_forall in S. auto.
    - intros m t [S R] K. split; [|eapply reach_item; eauto]. apply vsorted_map in S as [_ S]. apply mget_In in K. rewrite Forall_forall in S. apply (S _ K).
    - intros m k l t [S R] Ik K I'. split; [|eapply reach_list; eauto]. apply vsorted_map in S as [_ S]. apply mget_In in K. rewrite Forall_forall in S. specialize (S _ K). cbn in S. apply vsorted_list in S. rewrite Forall_forall in S. auto.
    - intros a q w H _. auto.
    - apply adds_trans.
    - intros a x _ (m & R & K) q w H _. right. exists m, x, q. auto.
    - apply adds_inner.
    - split; [exact Ss|apply reach_self]. }
  apply (document_rel (adds (from_default get_schema s)) root p o root'); auto; [intros a q w H _; auto|apply adds_inner].
Qed.
Print Assumptions C28_added_partial.

(** ** What is filled *)

(** Where the schema alone says what the default is, and nothing or null was there, the default
    is there afterwards. *)
Theorem C28_filled_partial : forall (get_schema : bytes -> res value) (fuel : nat) (s root : value) (p : path) (root' : value) (q : path) (x : value),
  (forall u t, get_schema u = Ok t -> vsorted t) -> vsorted s -> vsorted root -> viable root (p ++ q) ->
  says get_schema s q x -> vat root (p ++ q) = None \/ vat root (p ++ q) = Some VNull ->
  defaults get_schema fuel s root p = Ok root' -> vat root' (p ++ q) = Some x.
Proof.
  intros get_schema fuel s root p root' q x SG Ss Sr V P AB E.
  assert (Vp : viable root p). { intros a e t ->. apply (V a e (t ++ q)). rewrite <- app_assoc. reflexivity. }
  destruct (by_place get_schema SG fuel s root p root' Ss Sr Vp E) as (o & L & W & So).
  assert (OA : forall a, oat (vat root p) a = vat root (p ++ a)) by (intros a; rewrite vat_app; reflexivity).
  assert (Q : oat o q = Some x).
  { apply (local_fills get_schema SG fuel s q x (vat root p)); auto using at_sorted.
    - intros a e t ->. rewrite OA. apply (V (p ++ a) e t). rewrite <- app_assoc. reflexivity.
    - rewrite OA. destruct AB as [->| ->]; reflexivity. }
  destruct o as [y|]; [|discriminate]. cbn [write] in W. unfold put in W. destruct (vset root p y) as [r|] eqn:G; [|discriminate]. injection W as ->.
  rewrite (vat_vset root p y root' q Sr G). exact Q.
Qed.
Print Assumptions C28_filled_partial.

(** No default is forgotten, wherever in the schema it is: if what is above is there, then so is
    afterwards something for every default other than null.  (The first default found wins, see
    C28_alternatives.) *)
Theorem C28_complete_partial : forall (get_schema : bytes -> res value) (fuel : nat) (s root : value) (p : path) (root' : value) (q : path) (x : value),
  (forall u t, get_schema u = Ok t -> vsorted t) -> vsorted s -> vsorted root ->
  (forall a e r, p ++ q = a ++ e :: r -> exists w, vat root a = Some w /\ kind_for e w) ->
  gives get_schema s q x -> x <> VNull ->
  defaults get_schema fuel s root p = Ok root' -> exists w, vat root' (p ++ q) = Some w /\ w <> VNull.
Proof.
  intros get_schema fuel s root p root' q x SG Ss Sr V P N E.
  assert (Vp : viable root p). { intros a e t ->. destruct (V a e (t ++ q)) as (w & -> & F); [rewrite <- app_assoc; reflexivity|exact F]. }
  destruct (by_place get_schema SG fuel s root p root' Ss Sr Vp E) as (o & L & W & So).
  assert (OA : forall a, oat (vat root p) a = vat root (p ++ a)) by (intros a; rewrite vat_app; reflexivity).
  assert (Q : there o q).
  { apply (local_gives get_schema SG fuel s q x (vat root p)); auto using at_sorted. intros a e t ->. rewrite OA. apply (V (p ++ a) e t). rewrite <- app_assoc. reflexivity. }
  destruct Q as (w & Q & Nw). exists w. split; [|exact Nw]. destruct o as [y|]; [|discriminate]. cbn [write] in W. unfold put in W. destruct (vset root p y) as [r|] eqn:G; [|discriminate]. injection W as ->.
  rewrite (vat_vset root p y root' q Sr G). exact Q.
Qed.
Print Assumptions C28_complete_partial.

(** ** It ends *)

(** Without endless references it does end, and nothing is refused. *)
Theorem C28_ends_partial : forall (get_schema : bytes -> res value) (n : nat) (s root : value) (p : path),
  (forall u t, get_schema u = Ok t -> vsorted t) -> vsorted s -> vsorted root -> viable root p -> sound get_schema n s ->
  forall fuel, (n <= fuel)%nat -> exists root', defaults get_schema fuel s root p = Ok root'.
Proof.
  intros get_schema n s root p SG Ss Sr V P fuel L. destruct (defaults_local get_schema SG fuel s Ss) as [A _]. rewrite (A root p Sr V I).
  destruct (local_ends get_schema SG fuel s (vat root p) Ss (sound_more get_schema SG n s P fuel L) (at_sorted root p Sr)) as [o ->]. cbn [rbind].
  destruct o as [x|]; cbn [write]; [|eauto]. unfold put. destruct (viable_vset root p x V) as [r ->]. eauto.
Qed.
Print Assumptions C28_ends_partial.

(** A list of things each of which has its own schema: references to the schema itself are fine
    for validation (C26_linked is such a schema), but there is no end to the places where there is
    nothing. *)
Definition CM : list (bytes * value) := [(s2b "properties", VMap [(s2b "next", VMap [(s2b "$ref", VStr (s2b "#"))])])].
Definition chain : value := VMap CM.
Definition to_chain (u : bytes) : res value := Ok chain.
Lemma chain_next o f : for_map o = true -> local to_chain f chain (child o (PKey (s2b "next"))) = Fuel -> local to_chain (S (S f)) chain o = Fuel.
Proof.
  intros F E. assert (L : local to_chain (S f) (VMap [(s2b "$ref", VStr (s2b "#"))]) (child o (PKey (s2b "next"))) = Fuel).
  { cbn [local]. unfold l_map. change (key "$ref" [(s2b "$ref", VStr (s2b "#"))]) with (Some (VStr (s2b "#"))). unfold to_chain at 1. cbn [rbind]. rewrite E. reflexivity. }
  change (local to_chain (S (S f)) chain o) with (l_map to_chain (local to_chain (S f)) CM o).
  unfold l_map. change (key "$ref" CM) with (@None value). change (key "default" CM) with (@None value). cbn [rbind]. unfold l_rest.
  change (key "properties" CM) with (Some (VMap [(s2b "next", VMap [(s2b "$ref", VStr (s2b "#"))])])). rewrite F. cbn [l_props l_properties]. unfold inner. rewrite L. reflexivity.
Qed.
Lemma chain_local : forall fuel, local to_chain fuel chain None = Fuel.
Proof.
  assert (T : forall n fuel, (fuel <= n)%nat -> local to_chain fuel chain None = Fuel).
  { induction n as [|n IH]; intros [|[|f]] L; try reflexivity; [lia|]. apply chain_next; [reflexivity|]. apply IH. lia. }
  intros fuel. apply (T fuel). lia.
Qed.
Theorem C28_endless_refuted : exists (get_schema : bytes -> res value) (s root : value),
  (forall u t, get_schema u = Ok t -> vsorted t) /\ vsorted s /\ vsorted root /\
  schema_validate (fun _ => None) get_schema 101 s root = Ok no_errors /\
  forall fuel, add_defaults get_schema fuel s root = Fuel.
Proof.
  assert (Sc : vsorted chain) by (apply vsortedb_ok; vm_compute; reflexivity).
  assert (SG : forall (u : bytes) (t : value), to_chain u = Ok t -> vsorted t) by (intros u t E; injection E as <-; exact Sc).
  assert (S0 : vsorted (VMap [])) by (apply vsortedb_ok; reflexivity).
  exists to_chain, chain, (VMap []). split; [exact SG|]. split; [exact Sc|]. split; [exact S0|].
  split; [vm_compute; reflexivity|]. intros fuel. unfold add_defaults.
  destruct (defaults_local to_chain SG fuel chain Sc) as [A _]. rewrite (A (VMap []) [] S0 (viable_nil _) I).
  destruct fuel as [|[|f]]; try reflexivity. rewrite chain_next; [reflexivity|reflexivity|apply chain_local].
Qed.
Print Assumptions C28_endless_refuted.

(** ** Once is enough *)

(** For schemas that say one thing about each place, doing it again changes nothing. *)
Theorem C28_once_partial : forall (get_schema : bytes -> res value) (fuel : nat) (s root : value) (p : path) (root' : value),
  (forall u t, get_schema u = Ok t -> vsorted t) -> vsorted s -> vsorted root -> viable root p -> simple get_schema s ->
  defaults get_schema fuel s root p = Ok root' -> defaults get_schema fuel s root' p = Ok root'.
Proof.
  intros get_schema fuel s root p root' SG Ss Sr V P E. destruct (by_place get_schema SG fuel s root p root' Ss Sr V E) as (o & L & W & So).
  pose proof (proj1 (local_once get_schema SG fuel) s (vat root p) o Ss P (at_sorted root p Sr) L) as O.
  destruct (defaults_local get_schema SG fuel s Ss) as [A B]. destruct o as [x|]; cbn [write] in W.
  - unfold put in W. destruct (vset root p x) as [r|] eqn:G; [|discriminate]. injection W as ->.
    assert (Sr' : vsorted root') by (exact (vset_sorted p root x root' Sr So G)).
    assert (X : vat root' p = Some x) by (pose proof (vat_vset root p x root' [] Sr G) as X; rewrite app_nil_r in X; exact X).
    rewrite (A root' p Sr' (viable_kept root p x root' Sr V G) I), X, O. cbn [rbind write]. unfold put. rewrite (vset_same root' p x Sr' X). reflexivity.
  - injection W as <-. assert (N : vat root p = None). { destruct (vat root p) eqn:Q; [|reflexivity]. assert (Sv : osorted (Some v)) by (rewrite <- Q; apply at_sorted, Sr). destruct (B (Some v) None Sv I L) as (_ & _ & Z). destruct Z; [discriminate|reflexivity]. }
    rewrite (A root p Sr V I), N, O. reflexivity.
Qed.
Print Assumptions C28_once_partial.

(** A default beside properties: the first time the default is put there and the properties are
    not looked at, the second time they are. *)
Definition twice : value := jtext "{""default"":{},""properties"":{""a"":{""default"":1}}}".
Theorem C28_twice_refuted : exists s root root1 root2 : value, vsorted s /\ vsorted root /\ sound (fun _ => Throw RuntimeError) 2 s /\
  add_defaults (fun _ => Throw RuntimeError) 2 s root = Ok root1 /\ add_defaults (fun _ => Throw RuntimeError) 2 s root1 = Ok root2 /\ root1 <> root2.
Proof.
  exists twice, VNull, (VMap []), (jtext "{""a"":1}"). split; [apply vsortedb_ok; vm_compute; reflexivity|]. split; [exact I|]. split.
  - apply soundb_ok. vm_compute. reflexivity.
  - split; [vm_compute; reflexivity|]. split; [vm_compute; reflexivity|]. vm_compute. discriminate.
Qed.
Print Assumptions C28_twice_refuted.

(** ** Examples *)

(** Places with something, with null and with nothing; a list that is too short; a reference. *)
Definition ports : value := Eval vm_compute in jtext "{""properties"":{""host"":{""default"":""localhost""},""more"":{""properties"":{""on"":{""default"":true}}},""ports"":{""items"":[{""$ref"":""p""},{},{""$ref"":""p""}]},""tag"":{""default"":{""x"":[1,null]}},""user"":{""default"":""root""}}}".
Definition a_port : value := Eval vm_compute in jtext "{""default"":80,""type"":""integer""}".
Definition to_port (u : bytes) : res value := if beqb u (s2b "p") then Ok a_port else Throw RuntimeError.
Definition some_ports : value := Eval vm_compute in jtext "{""doc"":{""host"":""h"",""kept"":[1],""ports"":[8080],""user"":null}}".
Definition doc : path := [PKey (s2b "doc")].
Definition filled_ports : value := jtext "{""doc"":{""host"":""h"",""kept"":[1],""more"":{""on"":true},""ports"":[8080,null,80],""tag"":{""x"":[1,null]},""user"":""root""}}".
Lemma to_port_sorted u t : to_port u = Ok t -> vsorted t.
Proof. unfold to_port. destruct (beqb u (s2b "p")); [|discriminate]. intros E. injection E as <-. apply vsortedb_ok. vm_compute. reflexivity. Qed.
Lemma doc_viable : viable some_ports doc.
Proof. intros a e r E. destruct a as [|b a]; [injection E as <- <-; eexists; reflexivity|destruct a; discriminate E]. Qed.

Example C28_example :
  vsorted ports /\ vsorted some_ports /\ viable some_ports doc /\ sound to_port 4 ports /\ simple to_port ports /\
  defaults to_port 4 ports some_ports doc = Ok filled_ports /\ defaults to_port 4 ports filled_ports doc = Ok filled_ports.
Proof.
  split; [apply vsortedb_ok; vm_compute; reflexivity|]. split; [apply vsortedb_ok; vm_compute; reflexivity|].
  split; [exact doc_viable|].
  split; [apply soundb_ok; vm_compute; reflexivity|]. split; [apply (simpleb_ok to_port 4); vm_compute; reflexivity|]. split; vm_compute; reflexivity.
Qed.
(** Two of the places of C28_filled_partial: one with null, one with nothing and nothing above. *)
Example C28_filled_example :
  says to_port ports [PKey (s2b "user")] (VStr (s2b "root")) /\ vat some_ports (doc ++ [PKey (s2b "user")]) = Some VNull /\
  says to_port ports [PKey (s2b "more"); PKey (s2b "on")] (VBool true) /\ vat some_ports (doc ++ [PKey (s2b "more"); PKey (s2b "on")]) = None /\
  says to_port ports [PKey (s2b "ports"); PIdx 2] (VUns 80) /\ vat some_ports (doc ++ [PKey (s2b "ports"); PIdx 2]) = None.
Proof.
  split; [|split; [reflexivity|]; split; [|split; [reflexivity|]; split; [|reflexivity]]].
  - eapply says_property; [apply absentb_ok; reflexivity|reflexivity|do 4 right; left; reflexivity|].
    apply says_default; reflexivity.
  - eapply says_property; [apply absentb_ok; reflexivity|reflexivity|do 1 right; left; reflexivity|].
    eapply says_property; [apply absentb_ok; reflexivity|reflexivity|left; reflexivity|]. apply says_default; reflexivity.
  - eapply says_property; [apply absentb_ok; reflexivity|reflexivity|do 2 right; left; reflexivity|].
    eapply says_items; [apply absentb_ok; reflexivity|reflexivity|reflexivity|reflexivity|].
    eapply says_ref; [reflexivity|reflexivity|apply absentb_ok; reflexivity|]. apply says_default; reflexivity.
Qed.
(** Every alternative of "oneOf" adds its defaults, though the data satisfies only the second:
    C28_alternatives gets the first one's default for "x". *)
Definition either : value := Eval vm_compute in jtext "{""oneOf"":[{""required"":[""a""],""properties"":{""x"":{""default"":1}}},{""required"":[""b""],""properties"":{""x"":{""default"":2},""y"":{""default"":3}}}]}".
Example C28_complete_example :
  gives (fun _ => Throw RuntimeError) either [PKey (s2b "y")] (VUns 3) /\
  (forall a e r, [] ++ [PKey (s2b "y")] = a ++ e :: r -> exists w, vat (jtext "{""b"":0}") a = Some w /\ kind_for e w).
Proof.
  split.
  - eapply gives_list; [discriminate|right; left; reflexivity|reflexivity|right; left; reflexivity|].
    eapply gives_property; [reflexivity|right; left; reflexivity|]. apply gives_default. reflexivity.
  - intros a e r E. destruct a as [|b a]; [injection E as <- <-|destruct a; discriminate E]. eexists. split; [reflexivity|]. eexists. vm_compute. reflexivity.
Qed.
Example C28_alternatives :
  add_defaults (fun _ => Throw RuntimeError) 3 either (jtext "{""b"":0}") = Ok (jtext "{""b"":0,""x"":1,""y"":3}").
Proof. vm_compute. reflexivity. Qed.
