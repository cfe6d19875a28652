(** C53, the other way: what the generated schema of a command line accepts. *)
From Coq Require Import Reals.
From Flocq Require Import Core IEEE754.BinarySingleNaN.
From Verif Require Import Base CNum Float Value Convert Numeric NumberSpec P_Equal Path ValueOps ParserInput Emit Schema SchemaSem SchemaProofs ArgParse P_ArgParse ArgSchema P_ArgSchema.
Open Scope N_scope.

(** ** What is claimed *)
(** The types as JSON Schema has them: a number without a fraction is an integer, and TypeString knows no lists, maps and blobs. *)
Definition typed (t : vtype) (w : value) : Prop :=
  match t with
  | NullType => True
  | BoolType => exists b, w = VBool b
  | IntegerType | UnsignedType => (exists z, w = VInt z) \/ (exists n, w = VUns n) \/ exists x, w = VFlt x /\ (f_finite x = true -> exists z, num_val w = Some (Fin (IZR z)))
  | FloatType => (exists z, w = VInt z) \/ (exists n, w = VUns n) \/ exists x, w = VFlt x
  | StringType => exists s, w = VStr s
  | _ => w = VNull
  end.
(** One value meets the demands of an option: the numbers are compared as real numbers. *)
Record demanded (rx : bytes -> option (bytes -> bool)) (o : aopt) (w : value) : Prop := {
  dd_type : typed (o_type o) w;
  dd_min : forall b x y, mget (s2b "minimum") (o_opt o) = Some b -> vok b -> num_val w = Some x -> num_val b = Some y -> ~ ext_lt x y;
  dd_max : forall b x y, mget (s2b "maximum") (o_opt o) = Some b -> vok b -> num_val w = Some x -> num_val b = Some y -> ~ ext_lt y x;
  dd_short : forall s b n, w = VStr s -> mget (s2b "minLength") (o_opt o) = Some b -> vok b -> count_of b = Some n -> n <= wrap32 (llen s);
  dd_long : forall s b n, w = VStr s -> mget (s2b "maxLength") (o_opt o) = Some b -> vok b -> count_of b = Some n -> wrap32 (llen s) <= n;
  dd_pattern : forall s p, w = VStr s -> mget (s2b "pattern") (o_opt o) = Some p -> exists t f, p = VStr t /\ rx (c_str t) = Some f /\ f (c_str s) = true;
  dd_enum : forall e, mget (s2b "enum") (o_opt o) = Some e -> exists l x, e = VList l /\ In x l /\ v_eq x w = Ok true }.
(** What can stand at the place of an option. *)
Definition fitting (rx : bytes -> option (bytes -> bool)) (o : aopt) (w : value) : Prop :=
  match o_action o with
  | AStore => demanded rx o w
  | AStoreConst => exists c, mget (s2b "const") (o_opt o) = Some c /\ v_eq c w = Ok true
  | AStoreTrue | AStoreFalse => exists b, w = VBool b
  | AAppend => forall l, w = VList l -> llen l < 2^32 -> Forall (demanded rx o) l /\
      (forall b n, mget (s2b "minArgs") (o_opt o) = Some b -> vok b -> count_of b = Some n -> n <= llen l) /\
      (forall b n, mget (s2b "maxArgs") (o_opt o) = Some b -> vok b -> count_of b = Some n -> 0 < n -> llen l <= n)
  | ACount => typed IntegerType w /\ forall x, num_val w = Some x -> ~ ext_lt x (Fin 0)
  | _ => True
  end.

(** ** Proof: errors stay *)
Definition clean (k : sctx -> res flow) : Prop := forall c, (k c = Ok (Go no_errors) -> c = no_errors) /\ k c <> Ok (Stop no_errors).
Lemma next_inv r k e : next r k = Ok (Go e) -> exists c, r = Ok (Go c) /\ k c = Ok (Go e).
Proof. unfold next. destruct r as [[c|c]| | | |]; cbn [rbind]; try discriminate. eauto. Qed.
Lemma clean_next r k : clean k -> next r k = Ok (Go no_errors) -> r = Ok (Go no_errors) /\ k no_errors = Ok (Go no_errors).
Proof. intros C E. apply next_inv in E. destruct E as (c & -> & E). assert (c = no_errors) as -> by exact (proj1 (C c) E). auto. Qed.
Lemma clean_seq f k : clean f -> clean k -> clean (fun c => next (f c) k).
Proof.
  intros A B c. split.
  - intros E. apply (clean_next _ _ B) in E. now apply A.
  - intros E. unfold next in E. destruct (f c) as [[c1|c1]| | | |] eqn:X; cbn [rbind] in E; try discriminate; [exact (proj2 (B c1) E)|]. apply (proj2 (A c)). congruence.
Qed.
Lemma clean_go : clean (fun c => Ok (Go c)). Proof. intros c. split; [congruence|discriminate]. Qed.
Lemma clean_err : clean add_error. Proof. intros c. split; discriminate. Qed.
Lemma clean_serr : clean add_schema_error. Proof. intros c. split; discriminate. Qed.
Lemma clean_do {A} (r : res A) f : (forall x, clean (f x)) -> clean (fun c => do x <- r; f x c).
Proof. intros H c. destruct r; cbn [rbind]; try (split; discriminate). apply (H a). Qed.
Lemma clean_each {A} (f : A -> sctx -> res flow) l : (forall x, clean (f x)) -> clean (each f l).
Proof. intros H. induction l as [|x l IH]; cbn [each]; [apply clean_go|]. apply (clean_seq (f x) (each f l)); auto. Qed.
Lemma each_all {A} (f : A -> sctx -> res flow) l : (forall x, clean (f x)) -> each f l no_errors = Ok (Go no_errors) -> forall x, In x l -> f x no_errors = Ok (Go no_errors).
Proof.
  intros H. induction l as [|y l IH]; intros E x I; [destruct I|]. cbn [each] in E. apply clean_next in E; [|now apply clean_each]. destruct E as [E1 E2].
  destruct I as [-> | I]; auto.
Qed.
Lemma clean_type all l d : clean (type_loop all l d).
Proof.
  induction l as [|i t IH]; intros c; cbn [type_loop].
  - destruct (texts all); cbn; split; discriminate.
  - cbv zeta. unfold rbind. repeat match goal with
      | |- (type_loop _ _ _ c = _ -> _) /\ _ => exact (IH c)
      | |- (type_loop _ _ _ ?e = _ -> _) /\ _ => split; [intros E; apply (proj1 (IH e)) in E; discriminate E|exact (proj2 (IH e))]
      | |- (Ok (Go c) = _ -> _) /\ _ => split; [congruence|discriminate]
      | |- context [match ?x with _ => _ end] => match x with context [match _ with _ => _ end] => fail 1 | _ => destruct x; try (split; discriminate) end
      end.
Qed.
Ltac cl := repeat first [apply clean_go | apply clean_err | apply clean_serr | apply clean_type | assumption
  | match goal with
    | |- clean (fun c => next ?r ?k) => apply (clean_seq (fun c => r)); cbv beta
    | |- clean (fun c => match ?x with _ => _ end) => destruct x
    | |- clean (fun c => rbind ?r _) => apply clean_do; intros ?
    | |- clean (each _ _) => apply clean_each; intros ?
    | H : forall s d, clean (_ s d) |- clean (fun c => ?f ?s ?d c) => apply H
    | |- clean (fun c => ?f c) => change (clean f)
    end].
Lemma clean_types m d : clean (validate_type m d). Proof. unfold validate_type. cl. Qed.
Lemma clean_enum m d : clean (validate_enum m d). Proof. unfold validate_enum. cl. Qed.
Lemma clean_bound a b f m d : clean (validate_bound a b f m d). Proof. unfold validate_bound. cl. Qed.
Lemma clean_multiple m d : clean (validate_multiple m d). Proof. unfold validate_multiple. cl. Qed.
Lemma clean_minmax m d : clean (validate_minmax m d). Proof. unfold validate_minmax. apply (clean_seq (validate_bound _ _ _ m d)); apply clean_bound. Qed.
Lemma clean_numeric m d : clean (validate_numeric m d).
Proof. unfold validate_numeric. destruct (number d); [|apply clean_go]. apply (clean_seq (validate_multiple m d)); [apply clean_multiple|apply clean_minmax]. Qed.
Lemma clean_size lo hi n m : clean (validate_size lo hi n m).
Proof.
  unfold validate_size. apply (clean_seq (fun c => match key lo m with None => Ok (Go c) | Some b => if number b then do k <- as_uns b; if n <? k then add_error c else Ok (Go c) else add_schema_error c end)); cl.
Qed.
Lemma clean_pattern rx m s : clean (validate_pattern rx m s). Proof. unfold validate_pattern. cl. Qed.
Lemma clean_format rx m s : clean (validate_format rx m s). Proof. unfold validate_format. cl. Qed.
Lemma clean_string rx m d : clean (validate_string rx m d).
Proof.
  unfold validate_string. destruct d; try apply clean_go. apply (clean_seq (validate_size _ _ _ m)); [apply clean_size|].
  apply (clean_seq (validate_pattern rx m s)); [apply clean_pattern|apply clean_format].
Qed.
Lemma clean_required m d : clean (validate_required m d). Proof. unfold validate_required. cl. Qed.
Lemma clean_unique m l : clean (validate_unique m l). Proof. unfold validate_unique. cl. Qed.
Section Sub.
  Variable rx : bytes -> option (bytes -> bool).
  Variable get_schema : bytes -> res value.
  Variable sub : value -> value -> sctx -> res flow.
  Hypothesis SC : forall s d, clean (sub s d).
  Lemma clean_dependencies m d : clean (validate_dependencies sub m d).
  Proof. unfold validate_dependencies, need. cl. Qed.
  Lemma clean_properties m d : clean (validate_properties rx sub m d).
  Proof.
    unfold validate_properties. destruct (match key "patternProperties" m with None => _ | Some _ => _ end) as [bad ps]. destruct (match key "properties" m with None => _ | Some _ => _ end) as [bad2 props].
    intros c. match goal with |- (each ?f d ?c0 = _ -> _) /\ _ => assert (X : (each f d c0 = Ok (Go no_errors) -> c0 = no_errors) /\ each f d c0 <> Ok (Stop no_errors)) end.
    { apply clean_each. intros kv. cbv zeta.
      apply (clean_seq (fun c => match mget (fst kv) props with Some s => sub s (snd kv) c | None => Ok (Go c) end)); [cl|].
      apply (clean_seq (each (fun p => sub (snd p) (snd kv)) _)); [apply clean_each; auto|]. cl. }
    split; [|apply X]. destruct X as [X _]. intros E. specialize (X E). clear E. destruct c as [a b]. cbn [c_err c_serr] in X. injection X as -> X. apply Bool.orb_false_iff in X. destruct X as [X _]. apply Bool.orb_false_iff in X. destruct X as [-> _]. reflexivity.
  Qed.
  Lemma clean_object m d : clean (validate_object rx sub m d).
  Proof.
    unfold validate_object. destruct d; try apply clean_go. apply (clean_seq (validate_size _ _ _ m)); [apply clean_size|].
    apply (clean_seq (validate_required m m0)); [apply clean_required|]. apply (clean_seq (validate_properties rx sub m m0)); [apply clean_properties|apply clean_dependencies].
  Qed.
  Lemma clean_items_loop m items l : clean (items_loop sub m items l).
  Proof.
    revert items. induction l as [|x l IH]; intros items; cbn [items_loop]; [apply clean_go|]. destruct items as [|s items].
    - apply (clean_seq (fun c => match key "additionalItems" m with None => Ok (Go c) | Some (VBool true) => Ok (Go c) | Some (VBool false) => add_error c | Some s => sub s x c end)); [cl|apply IH].
    - apply (clean_seq (sub s x)); auto.
  Qed.
  Lemma clean_array m d : clean (validate_array sub m d).
  Proof.
    unfold validate_array. destruct d; try apply clean_go. apply (clean_seq (validate_size _ _ _ m)); [apply clean_size|].
    apply (clean_seq (validate_unique m l)); [apply clean_unique|]. unfold validate_items. destruct (key "items" m) as [[| | | | | |items| |]|]; try (apply clean_each; auto); [apply clean_items_loop|apply clean_go].
  Qed.
  Lemma clean_one l d : forall n, clean (one_loop sub l n d).
  Proof. induction l as [|s l IH]; intros n; cbn [one_loop]; [cl|]. apply clean_do. intros o. cbv zeta. match goal with |- context [if ?b then _ else _] => destruct b end; [apply clean_err|apply IH]. Qed.
  Lemma clean_any l d : clean (any_loop sub l d).
  Proof. induction l as [|s l IH]; cbn [any_loop]; [apply clean_err|]. apply clean_do. intros [e|e]; [destruct (failed e); [apply IH|apply clean_go]|apply IH]. Qed.
  Lemma clean_combinations m d : clean (validate_combinations sub m d).
  Proof.
    unfold validate_combinations. apply (clean_seq (validate_all sub m d)).
    { unfold validate_all. destruct (key "allOf" m) as [[| | | | | |l| |]|]; try apply clean_serr; [apply clean_each; auto|apply clean_go]. }
    apply (clean_seq (validate_any sub m d)).
    { unfold validate_any. destruct (key "anyOf" m) as [[| | | | | |l| |]|]; try apply clean_serr; [apply clean_any|apply clean_go]. }
    apply (clean_seq (validate_one sub m d)).
    { unfold validate_one. destruct (key "oneOf" m) as [[| | | | | |l| |]|]; try apply clean_serr; [apply clean_one|apply clean_go]. }
    unfold validate_not. cl.
  Qed.
  (** No error of any keyword. *)
  Lemma map_inv m d c : validate_map rx get_schema sub m d c = Ok (Go no_errors) -> c = no_errors /\
    validate_type m d no_errors = Ok (Go no_errors) /\ validate_enum m d no_errors = Ok (Go no_errors) /\ validate_numeric m d no_errors = Ok (Go no_errors) /\
    validate_string rx m d no_errors = Ok (Go no_errors) /\ validate_array sub m d no_errors = Ok (Go no_errors) /\ validate_object rx sub m d no_errors = Ok (Go no_errors) /\
    validate_combinations sub m d no_errors = Ok (Go no_errors).
  Proof.
    intros E. unfold validate_map in E.
    pose proof (clean_types m d) as C1. pose proof (clean_enum m d) as C2. pose proof (clean_numeric m d) as C3. pose proof (clean_string rx m d) as C4. pose proof (clean_array m d) as C5.
    pose proof (clean_object m d) as C6. pose proof (clean_combinations m d) as C7.
    pose proof (clean_seq _ _ C6 C7) as D6. pose proof (clean_seq _ _ C5 D6) as D5. pose proof (clean_seq _ _ C4 D5) as D4. pose proof (clean_seq _ _ C3 D4) as D3. pose proof (clean_seq _ _ C2 D3) as D2. pose proof (clean_seq _ _ C1 D2) as D1.
    apply (clean_next _ _ D1) in E. destruct E as [E0 E]. apply (clean_next _ _ D2) in E. destruct E as [E1 E]. apply (clean_next _ _ D3) in E. destruct E as [E2 E]. apply (clean_next _ _ D4) in E. destruct E as [E3 E].
    apply (clean_next _ _ D5) in E. destruct E as [E4 E]. apply (clean_next _ _ D6) in E. destruct E as [E5 E]. apply (clean_next _ _ C7) in E. destruct E as [E6 E7].
    split; [|auto 10]. destruct (key "$ref" m) as [[| | | | |u| | |]|]; try congruence. destruct (get_schema u) as [s'| | | |]; cbn [rbind] in E0; try discriminate. now apply (proj1 (SC s' d c)).
  Qed.
  Lemma clean_map m d : clean (validate_map rx get_schema sub m d).
  Proof.
    unfold validate_map. apply (clean_seq (fun c => match key "$ref" m with Some (VStr u) => do s <- get_schema u; sub s d c | _ => Ok (Go c) end)); [cl|].
    apply (clean_seq (validate_type m d)); [apply clean_types|]. apply (clean_seq (validate_enum m d)); [apply clean_enum|]. apply (clean_seq (validate_numeric m d)); [apply clean_numeric|].
    apply (clean_seq (validate_string rx m d)); [apply clean_string|]. apply (clean_seq (validate_array sub m d)); [apply clean_array|]. apply (clean_seq (validate_object rx sub m d)); [apply clean_object|]. apply clean_combinations.
  Qed.
End Sub.
Lemma clean_validate rx get_schema f : forall dep s d, clean (validate rx get_schema f dep s d).
Proof.
  induction f as [|f IH]; intros dep s d c; cbn [validate]; [split; discriminate|]. destruct (RECURSION_LIMIT <? dep + 1); [split; discriminate|]. destruct s; try apply clean_go.
  apply clean_map, IH.
Qed.

(** ** Proof: the way to the schema of an option *)
Fixpoint leads (s : value) (ks : list bytes) (req : bool) (leaf : value) : Prop :=
  match ks with
  | [] => s = leaf
  | k :: ks => exists m ps rq s', s = VMap m /\ objs m ps rq /\ (req = true -> In (VStr k) rq) /\ mget k ps = Some s' /\ leads s' ks req leaf
  end.
Lemma leads_self ks : forall s req leaf, shape s ks -> leads (gen_at s ks req leaf) ks req leaf.
Proof.
  induction ks as [|k ks IH]; intros s req leaf H; [reflexivity|].
  destruct (gen_objs s k ks req leaf (shape_cons _ _ _ H)) as (m0 & ps & rq & m' & rq' & C & -> & OB & RQ & _). cbn [leads].
  eexists m', _, rq', _. split; [reflexivity|]. split; [exact OB|]. split; [intros R; apply RQ; auto|].
  split; [rewrite mget_mset, beqb_refl by (destruct C as [(_ & _ & -> & _) | [_ C]]; [exact I|apply C]); reflexivity|]. apply IH.
  destruct C as [(-> & -> & -> & ->) | [-> C]]; [apply shape_nil|].
  destruct H as [E | (m1 & ps1 & rq1 & [= <-] & OB1 & H)]; [injection E as ->; exfalso; assert (X := ob_type _ _ _ C); discriminate|]. destruct (objs_same _ _ _ _ _ C OB1) as [<- _]. destruct (mget k ps); [exact H|apply shape_nil].
Qed.
Lemma leads_kept ks' : forall s ks req leaf req' leaf', shape s ks' -> leads s ks req leaf -> apart ks' ks -> leads (gen_at s ks' req' leaf') ks req leaf.
Proof.
  induction ks' as [|k' ks' IH]; intros s ks req leaf req' leaf' H L AP; [destruct ks; destruct AP|]. destruct ks as [|k ks]; [destruct AP|]. cbn [apart] in AP.
  destruct L as (m & ps & rq & s' & -> & OB & R & G & L).
  destruct (gen_objs (VMap m) k' ks' req' leaf' (shape_cons _ _ _ H)) as (m0 & ps0 & rq0 & m' & rq' & C & -> & OB' & RQ & _).
  destruct C as [(E & _) | [[= <-] C]]; [injection E as ->; exfalso; assert (X := ob_type _ _ _ OB); discriminate|]. destruct (objs_same _ _ _ _ _ OB C) as [<- <-].
  cbn [leads]. destruct (beqb k k') eqn:B.
  2: { eexists m', _, rq', s'. split; [reflexivity|]. split; [exact OB'|]. split; [intros Q; apply RQ; auto|]. rewrite mget_mset, B by apply OB. auto. }
  apply beqb_eq in B. subst k'. rewrite beqb_refl in AP. rewrite G in OB'. eexists m', _, rq', _. split; [reflexivity|]. split; [exact OB'|]. split; [intros Q; apply RQ; auto|].
  split; [rewrite mget_mset, beqb_refl by apply OB; reflexivity|]. apply IH; [|exact L|exact AP].
  destruct H as [E | (m1 & ps1 & rq1 & [= <-] & OB1 & H)]; [injection E as ->; exfalso; assert (X := ob_type _ _ _ OB); discriminate|]. destruct (objs_same _ _ _ _ _ OB OB1) as [<- _]. now rewrite G in H.
Qed.
Lemma all_leads l : forall s s', (forall o, In o l -> shape s (path_keys (o_path o))) -> ForallOrdPairs (fun a b => apart (path_keys (o_path a)) (path_keys (o_path b))) l -> gen_all l s = Ok s' ->
  (forall o, In o l -> exists leaf, gen_leaf o = Ok leaf /\ leads s' (path_keys (o_path o)) (o_required o) (VMap leaf)) /\
  (forall ks req leaf, (forall o, In o l -> apart (path_keys (o_path o)) ks) -> leads s ks req leaf -> leads s' ks req leaf).
Proof.
  induction l as [|o l IH]; intros s s' SH AP E; cbn [gen_all] in E; [injection E as <-; split; [intros ? []|auto]|].
  apply P_ArgParse.bind_ok in E. destruct E as (leaf & GL & E). inversion AP as [|? ? AO AP']; subst. rewrite Forall_forall in AO.
  assert (SO := SH o (or_introl eq_refl)).
  destruct (IH (gen_at s (path_keys (o_path o)) (o_required o) (VMap leaf)) s') as [H1 H2]; [|exact AP'|exact E|].
  { intros x IX. apply shape_kept; auto. apply SH. now right. }
  assert (SY : forall a b, apart a b -> apart b a).
  { clear. induction a as [|x a IHa]; intros [|y b] H; cbn [apart] in *; try contradiction. destruct (beqb y x) eqn:B; [|exact I]. apply beqb_eq in B. subst y. rewrite beqb_refl in H. auto. }
  split.
  - intros x [<- | IX]; [|auto]. exists leaf. split; [exact GL|]. apply H2; [|now apply leads_self]. intros y IY. apply SY. auto.
  - intros ks req lf AK L. apply H2; [intros y IY; apply AK; now right|]. apply leads_kept; auto. apply AK. now left.
Qed.
Lemma objs_allof m ps rq L : objs m ps rq -> objs (mset (s2b "allOf") (VList L) m) ps rq.
Proof.
  intros OB. assert (K : forall k, mget k (mset (s2b "allOf") (VList L) m) = if beqb k (s2b "allOf") then Some (VList L) else mget k m) by (intros k; apply mget_mset, OB).
  destruct OB as [O1 O2 O3 O4 O5 O6 O7]. constructor; unfold key in *; rewrite ?K; auto.
  - now apply msorted_mset.
  - intros k N. rewrite K. destruct (beqb k (s2b "allOf")) eqn:B; [|auto]. apply beqb_eq in B. subst k. exfalso. apply N. cbn. tauto.
Qed.
Lemma groups_leads d s ks req leaf : ks <> [] -> leads s ks req leaf -> leads (gen_groups d s) ks req leaf.
Proof.
  intros NE L. unfold gen_groups. destruct (flat_map (gen_group d) (d_groups d)) as [|g gl]; [exact L|]. destruct ks as [|k ks]; [congruence|].
  destruct L as (m & ps & rq & s' & -> & OB & R & G & L). eexists _, ps, rq, s'. split; [reflexivity|]. split; [now apply objs_allof|]. auto.
Qed.
Section Accepted.
  Variable rx : bytes -> option (bytes -> bool).
  Variable get_schema : bytes -> res value.
  Notation val := (validate rx get_schema).
  Lemma type_object d : type_loop [VStr (s2b "object")] [VStr (s2b "object")] d no_errors = Ok (Go no_errors) -> exists dm, d = VMap dm.
  Proof. destruct d; try (intros H; vm_compute in H; discriminate). eauto. Qed.
  (** What is accepted is a map with everything required, and what is there is accepted. *)
  Lemma obj_inv sub m ps rq d : (forall s d, clean (sub s d)) -> objs m ps rq -> validate_map rx get_schema sub m d no_errors = Ok (Go no_errors) ->
    exists dm, d = VMap dm /\ (forall k, In (VStr k) rq -> mget k dm <> None) /\ (forall k s w, mget k ps = Some s -> mget k dm = Some w -> sub s w no_errors = Ok (Go no_errors)) /\
    validate_combinations sub m d no_errors = Ok (Go no_errors).
  Proof.
    intros SC OB E. apply (map_inv rx get_schema sub SC) in E. destruct E as (_ & T & _ & _ & _ & _ & B & CO).
    unfold validate_type in T. rewrite (ob_type _ _ _ OB) in T. apply type_object in T. destruct T as [dm ->]. exists dm. split; [reflexivity|].
    unfold validate_object in B. pose proof (clean_dependencies sub SC m dm) as C3. pose proof (clean_seq _ _ (clean_properties rx sub SC m dm) C3) as C2. pose proof (clean_seq _ _ (clean_required m dm) C2) as C1.
    apply (clean_next _ _ C1) in B. destruct B as [_ B]. apply (clean_next _ _ C2) in B. destruct B as [B1 B]. apply (clean_next _ _ C3) in B. destruct B as [B2 _].
    split; [|split; [|exact CO]].
    - intros k IK. unfold validate_required in B1. assert (R := ob_req _ _ _ OB). destruct (key "required" m) as [v|]; [subst v|subst rq; destruct IK].
      apply (each_all _ _) with (x := VStr k) in B1; [|intros x; cl|exact IK]. cbv beta iota in B1. destruct (mget k dm); [discriminate|discriminate B1].
    - intros k s w P W. unfold validate_properties in B2. rewrite (ob_props _ _ _ OB) in B2. destruct (match key "patternProperties" m with None => _ | Some _ => _ end) as [bad pp].
      match type of B2 with each ?f _ ?c0 = _ => assert (FC : forall x, clean (f x)) end.
      { intros kv. cbv zeta. apply (clean_seq (fun c => match mget (fst kv) ps with Some s => sub s (snd kv) c | None => Ok (Go c) end)); [cl|].
        apply (clean_seq (each (fun p => sub (snd p) (snd kv)) _)); [apply clean_each; auto|]. cl. }
      match type of B2 with each ?f _ ?c0 = _ => assert (c0 = no_errors) as X by exact (proj1 (clean_each f dm FC c0) B2); rewrite X in B2; clear X end.
      apply (each_all _ _ FC) with (x := (k, w)) in B2; [|now apply mget_In]. cbv zeta in B2. cbn [fst snd] in B2. rewrite P in B2.
      apply clean_next in B2; [apply B2|]. apply (clean_seq (each (fun p => sub (snd p) w) _)); [apply clean_each; auto|]. cl.
  Qed.
  Lemma leads_inv ks : forall s d req leaf f dep, leads s ks req leaf -> val f dep s d no_errors = Ok (Go no_errors) ->
    mapped d ks /\ (req = true -> vat d (keys ks) <> None) /\ forall w, vat d (keys ks) = Some w -> exists f' dep', val f' dep' leaf w no_errors = Ok (Go no_errors).
  Proof.
    induction ks as [|k ks IH]; intros s d req leaf f dep L E.
    - cbn [leads] in L. subst s. split; [exact I|]. cbn [keys List.map vat]. split; [discriminate|]. intros w [= <-]. eauto.
    - destruct L as (m & ps & rq & s' & -> & OB & R & G & L). destruct f as [|f]; cbn [validate] in E; [discriminate|]. destruct (RECURSION_LIMIT <? dep + 1); [discriminate|].
      apply (obj_inv _ m ps rq) in E; [|apply clean_validate|exact OB]. destruct E as (dm & -> & RQ & CH & _). cbn [mapped keys List.map vat vchild]. fold (keys ks).
      destruct (mget k dm) as [w|] eqn:W.
      + destruct (IH s' w req leaf f (dep + 1) L (CH _ _ _ G W)) as (M & Q & K). split; [exists dm; rewrite W; auto|]. auto.
      + split; [exists dm; rewrite W; auto|]. split; [|discriminate]. intros RT. exfalso. exact (RQ k (R RT) W).
  Qed.
End Accepted.

(** ** Proof: one option *)
Section Leaf.
  Variable rx : bytes -> option (bytes -> bool).
  Variable get_schema : bytes -> res value.
  Lemma type_inv t w : vok w -> t <> NullType -> type_loop [VStr (type_string t)] [VStr (type_string t)] w no_errors = Ok (Go no_errors) -> typed t w.
  Proof.
    intros V NT E. destruct t; try congruence; cbn [typed type_string] in *.
    - destruct w; try (vm_compute in E; discriminate). eauto.
    - destruct w as [| |z|n|x| | | |]; try (vm_compute in E; discriminate); eauto. right. right. exists x. split; [reflexivity|]. intros F. destruct (float_integer x V F) as (r & b & E1 & E2 & Q).
      apply Q. change (type_loop [VStr (s2b "integer")] [VStr (s2b "integer")] (VFlt x) no_errors) with
        (do r <- v_arith OpRem (VFlt x) (VInt 1); do z <- v_eq r (VInt 0); if (z : bool) then Ok (Go no_errors) else type_loop [VStr (s2b "integer")] [] (VFlt x) no_errors) in E.
      rewrite E1 in E. cbn [rbind] in E. rewrite E2 in E. cbn [rbind] in E. destruct b; [reflexivity|discriminate].
    - destruct w as [| |z|n|x| | | |]; try (vm_compute in E; discriminate); eauto. right. right. exists x. split; [reflexivity|]. intros F. destruct (float_integer x V F) as (r & b & E1 & E2 & Q).
      apply Q. change (type_loop [VStr (s2b "integer")] [VStr (s2b "integer")] (VFlt x) no_errors) with
        (do r <- v_arith OpRem (VFlt x) (VInt 1); do z <- v_eq r (VInt 0); if (z : bool) then Ok (Go no_errors) else type_loop [VStr (s2b "integer")] [] (VFlt x) no_errors) in E.
      rewrite E1 in E. cbn [rbind] in E. rewrite E2 in E. cbn [rbind] in E. destruct b; [reflexivity|discriminate].
    - destruct w; try (vm_compute in E; discriminate); eauto.
    - destruct w; try (vm_compute in E; discriminate); eauto.
    - destruct w; try (vm_compute in E; discriminate); eauto.
    - destruct w; try (vm_compute in E; discriminate); eauto.
    - destruct w; try (vm_compute in E; discriminate); eauto.
  Qed.
  Lemma enum_inv l w : enum_loop l w = Ok true -> exists x, In x l /\ v_eq x w = Ok true.
  Proof.
    induction l as [|x l IH]; cbn [enum_loop]; [discriminate|]. destruct (comparable x w).
    - destruct (v_eq x w) as [[|]| | | |] eqn:E; cbn [rbind]; try discriminate; [intros _; exists x; split; [now left|exact E]|]. intros H. destruct (IH H) as (y & IY & Y). exists y. split; [now right|exact Y].
    - intros H. destruct (IH H) as (y & IY & Y). exists y. split; [now right|exact Y].
  Qed.
  Lemma enum_of m w l : key "enum" m = Some (VList l) -> validate_enum m w no_errors = Ok (Go no_errors) -> exists x, In x l /\ v_eq x w = Ok true.
  Proof. intros K E. unfold validate_enum in E. rewrite K in E. destruct (enum_loop l w) as [[|]| | | |] eqn:L; cbn [rbind] in E; try discriminate. now apply enum_inv. Qed.
  Lemma bound_inv bound excl beyond m w b : key bound m = Some b -> validate_bound bound excl beyond m w no_errors = Ok (Go no_errors) -> beyond w b = Ok false.
  Proof.
    intros K E. unfold validate_bound in E. rewrite K in E. destruct (number b); [|discriminate]. destruct (beyond w b) as [[|]| | | |]; cbn [rbind] in E; try discriminate. reflexivity.
  Qed.
  Lemma numeric_inv m w : number w = true -> validate_numeric m w no_errors = Ok (Go no_errors) ->
    (forall b, key "minimum" m = Some b -> v_lt w b = Ok false) /\ (forall b, key "maximum" m = Some b -> v_gt w b = Ok false).
  Proof.
    intros NW E. unfold validate_numeric in E. rewrite NW in E. apply clean_next in E; [|apply clean_minmax]. destruct E as [_ E]. unfold validate_minmax in E. apply clean_next in E; [|apply clean_bound].
    destruct E as [E1 E2]. split; intros b K; [exact (bound_inv _ _ _ _ _ _ K E1)|exact (bound_inv _ _ _ _ _ _ K E2)].
  Qed.
  Lemma size_inv lo hi n m : validate_size lo hi n m no_errors = Ok (Go no_errors) ->
    (forall b k, key lo m = Some b -> vok b -> count_of b = Some k -> k <= n) /\ (forall b k, key hi m = Some b -> vok b -> count_of b = Some k -> n <= k).
  Proof.
    intros E. unfold validate_size in E. apply clean_next in E; [|cl]. destruct E as [E1 E2]. split; intros b k K V C; destruct (count_uns b k V C) as [N1 N2].
    - rewrite K, N1, N2 in E1. cbn [rbind] in E1. destruct (N.ltb_spec n k); [discriminate|lia].
    - rewrite K, N1, N2 in E2. cbn [rbind] in E2. destruct (N.ltb_spec k n); [discriminate|lia].
  Qed.
  Lemma lt_false w b x y : vok w -> vok b -> num_val w = Some x -> num_val b = Some y -> v_lt w b = Ok false -> ~ ext_lt x y.
  Proof. intros VW VB X Y E. destruct (v_lt_num w b x y VW VB X Y) as (r & E' & Q). rewrite E in E'. injection E' as <-. intros L. apply Q in L. discriminate. Qed.
  Lemma gt_false w b x y : vok w -> vok b -> num_val w = Some x -> num_val b = Some y -> v_gt w b = Ok false -> ~ ext_lt y x.
  Proof. intros VW VB X Y E. destruct (v_gt_num w b x y VW VB X Y) as (r & E' & Q). rewrite E in E'. injection E' as <-. intros L. apply Q in L. discriminate. Qed.
  Lemma demanding_inv sub o m w : (forall s d, clean (sub s d)) -> demanding o m -> vok w -> validate_map rx get_schema sub m w no_errors = Ok (Go no_errors) -> demanded rx o w.
  Proof.
    intros SC [_ T D _] V E. apply (map_inv rx get_schema sub SC) in E. destruct E as (_ & E1 & E2 & E3 & E4 & _).
    assert (NUM : forall x, num_val w = Some x -> number w = true) by (intros x X; eapply number_num; eauto).
    constructor.
    - unfold validate_type in E1. rewrite T in E1. destruct (o_type o) eqn:Y; [exact I|..]; (apply type_inv; [exact V|discriminate|exact E1]).
    - intros b x y G VB X Y. destruct (numeric_inv m w (NUM x X) E3) as [A _]. apply (lt_false w b); auto. apply A. rewrite D; [exact G|cbn; tauto].
    - intros b x y G VB X Y. destruct (numeric_inv m w (NUM x X) E3) as [_ A]. apply (gt_false w b); auto. apply A. rewrite D; [exact G|cbn; tauto].
    - intros s b n -> G VB C. cbn [validate_string] in E4. apply clean_next in E4; [|apply (clean_seq (validate_pattern rx m s)); [apply clean_pattern|apply clean_format]].
      destruct E4 as [E4 _]. apply (proj1 (size_inv _ _ _ _ E4) b n); auto. rewrite D; [exact G|cbn; tauto].
    - intros s b n -> G VB C. cbn [validate_string] in E4. apply clean_next in E4; [|apply (clean_seq (validate_pattern rx m s)); [apply clean_pattern|apply clean_format]].
      destruct E4 as [E4 _]. apply (proj2 (size_inv _ _ _ _ E4) b n); auto. rewrite D; [exact G|cbn; tauto].
    - intros s p -> G. cbn [validate_string] in E4. apply clean_next in E4; [|apply (clean_seq (validate_pattern rx m s)); [apply clean_pattern|apply clean_format]].
      destruct E4 as [_ E4]. apply clean_next in E4; [|apply clean_format]. destruct E4 as [E4 _]. unfold validate_pattern in E4. rewrite (D "pattern"%string), G in E4 by (cbn; tauto).
      destruct p as [| | | | |t| | |]; try discriminate. destruct (rx (c_str t)) as [f|] eqn:R; [|discriminate]. exists t, f. split; [reflexivity|]. split; [exact R|]. destruct (f (c_str s)); [reflexivity|discriminate].
    - intros e G. assert (K := D "enum"%string). rewrite G in K. specialize (K ltac:(cbn; tauto)). destruct e as [| | | | | |l| |]; try (unfold validate_enum in E2; rewrite K in E2; discriminate).
      destruct (enum_of m w l K E2) as (x & IX & Q). exists l, x. auto.
  Qed.
  Lemma leaf_inv o leaf w f dep : gen_leaf o = Ok leaf -> vok w -> validate rx get_schema f dep (VMap leaf) w no_errors = Ok (Go no_errors) -> fitting rx o w.
  Proof.
    intros G V E. destruct f as [|f]; cbn [validate] in E; [discriminate|]. destruct (RECURSION_LIMIT <? dep + 1); [discriminate|].
    assert (SC := clean_validate rx get_schema f (dep + 1)). set (sub := validate rx get_schema f (dep + 1)) in *.
    unfold gen_leaf in G. fold (head o) in G. assert (HS := head_sorted o). unfold fitting. destruct (o_action o) eqn:AC; try exact I.
    - injection G as <-. apply (demanding_inv sub o) with (3 := V) (4 := E); [exact SC|]. assert (D : demanding o (demands o (head o))).
      { apply demands_demanding; [exact HS|]. intros k IK. cbn [never app In] in IK. unfold key. repeat (destruct IK as [<- | IK]; [apply head_get; reflexivity|]). destruct IK. }
      destruct D as [B T SA (I1 & I2 & I3)]. assert (K : forall k, beqb (s2b k) (s2b "default") = false -> key k (copy_key o (demands o (head o)) "default") = key k (demands o (head o))).
      { intros k NB. unfold key. rewrite copy_get by auto using demands_sorted. now rewrite NB. }
      constructor.
      + intros k IK. rewrite K; [auto|]. cbn [never In] in IK. repeat (destruct IK as [<- | IK]; [reflexivity|]). destruct IK.
      + now rewrite K.
      + intros k IK. rewrite K; [auto|]. cbn [In] in IK. repeat (destruct IK as [<- | IK]; [reflexivity|]). destruct IK.
      + now rewrite !K.
    - destruct (akey "const" o) as [c|] eqn:KC; [|discriminate]. injection G as <-. exists c. split; [exact KC|]. apply (map_inv rx get_schema sub SC) in E. destruct E as (_ & _ & E & _).
      apply (enum_of _ _ [c]) in E; [|unfold key; now rewrite mget_mset, beqb_refl by exact HS]. destruct E as (x & [<- | []] & Q). exact Q.
    - injection G as <-. apply (map_inv rx get_schema sub SC) in E. destruct E as (_ & E & _). unfold validate_type, key in E. rewrite copy_get, mget_mset in E by auto using msorted_mset.
      vm_compute (beqb _ _) in E. cbv iota in E. exact (type_inv BoolType w V ltac:(discriminate) E).
    - injection G as <-. apply (map_inv rx get_schema sub SC) in E. destruct E as (_ & E & _). unfold validate_type, key in E. rewrite copy_get, mget_mset in E by auto using msorted_mset.
      vm_compute (beqb _ _) in E. cbv iota in E. exact (type_inv BoolType w V ltac:(discriminate) E).
    - intros l -> LL. cbv zeta in G. set (m0 := match akey "default" o with Some v => _ | None => _ end) in G.
      assert (S0 : msorted m0) by (subst m0; destruct (akey "default" o); auto using msorted_mset).
      set (m1 := mset (s2b "items") (VMap (demands o [])) m0) in G. assert (S1 : msorted m1) by (apply msorted_mset, S0).
      assert (KI : mget (s2b "items") m1 = Some (VMap (demands o []))) by (subst m1; now rewrite mget_mset, beqb_refl by exact S0).
      apply P_ArgParse.bind_ok in G. destruct G as (m2 & G2 & G3).
      assert (C : forall from to m m', msorted m -> copy_positive o from to m = Ok m' -> msorted m' /\ (forall k, beqb k (s2b to) = false -> mget k m' = mget k m) /\
        (forall b n, mget (s2b from) (o_opt o) = Some b -> vok b -> count_of b = Some n -> 0 < n -> mget (s2b to) m' = Some b)).
      { intros from to m m' SM CP. unfold copy_positive, akey in CP. destruct (mget (s2b from) (o_opt o)) as [b|] eqn:FB; [|injection CP as <-; split; [exact SM|]; split; [auto|discriminate]].
        apply P_ArgParse.bind_ok in CP. destruct CP as ([|] & GT & CP); injection CP as <-.
        - split; [now apply msorted_mset|]. split; [intros k NB; now rewrite mget_mset, NB by exact SM|]. intros b' n [= <-] _ _ _. now rewrite mget_mset, beqb_refl by exact SM.
        - split; [exact SM|]. split; [auto|]. intros b' n [= <-] VB CN POS. exfalso. assert (V0 : vok (VInt 0)) by (cbn; lia).
          apply (gt_false b (VInt 0) _ _ VB V0 (count_num b n CN) eq_refl GT). cbn [ext_lt]. apply IZR_lt. lia. }
      destruct (C _ _ _ _ S1 G2) as (S2 & K2 & P2). destruct (C _ _ _ _ S2 G3) as (S3 & K3 & P3). clear C.
      apply (map_inv rx get_schema sub SC) in E. destruct E as (_ & _ & _ & _ & _ & E & _). unfold validate_array in E.
      assert (CI : clean (validate_items sub leaf l)) by (unfold validate_items; rewrite ?K3; destruct (key "items" leaf) as [[| | | | | |items| |]|]; try (apply clean_each; auto); [apply clean_items_loop; auto|apply clean_go]).
      apply clean_next in E; [|apply (clean_seq (validate_unique leaf l)); [apply clean_unique|exact CI]]. destruct E as [E1 E]. apply clean_next in E; [|exact CI]. destruct E as [_ E].
      destruct (size_inv _ _ _ _ E1) as [Q1 Q2]. rewrite (small32 l LL) in Q1, Q2. split; [|split].
      + unfold validate_items, key in E. rewrite K3, K2, KI in E by reflexivity. rewrite (counted_all l LL) in E. rewrite Forall_forall. intros x IX.
        assert (VX : vok x) by (apply vok_list in V; rewrite Forall_forall in V; auto).
        apply (each_all _ _) with (x := x) in E; [|auto|exact IX]. subst sub. destruct f as [|f]; cbn [validate] in E; [discriminate|]. destruct (RECURSION_LIMIT <? dep + 1 + 1); [discriminate|].
        apply (demanding_inv (validate rx get_schema f (dep + 1 + 1)) o (demands o [])); auto; [apply clean_validate|]. apply demands_demanding; [exact I|reflexivity].
      + intros b n GB VB CN. destruct (N.eq_0_gt_0_cases n) as [-> | POS]; [lia|]. apply (Q1 b n); auto. unfold key. rewrite K3 by reflexivity. exact (P2 b n GB VB CN POS).
      + intros b n GB VB CN POS. apply (Q2 b n); auto. unfold key. exact (P3 b n GB VB CN POS).
    - injection G as <-. apply (map_inv rx get_schema sub SC) in E. destruct E as (_ & E1 & _ & E3 & _). unfold validate_type, key in E1. rewrite !mget_mset in E1 by auto using msorted_mset.
      vm_compute (beqb _ _) in E1. cbv iota in E1. split; [exact (type_inv IntegerType w V ltac:(discriminate) E1)|]. intros x X.
      apply numeric_inv in E3; [|eapply number_num; eauto]. destruct E3 as [A _]. assert (V0 : vok (VInt 0)) by (cbn; lia). apply (lt_false w (VInt 0) _ _ V V0 X eq_refl). apply A.
      unfold key. now rewrite mget_mset, beqb_refl by auto using msorted_mset.
  Qed.
End Leaf.

(** ** Proof: the groups *)
Lemma one_inv sub v l bs : Forall2 (answer sub v) l bs -> forall n c c', n <= 1 -> one_loop sub l n v c = Ok (Go c') -> n + N.of_nat (List.length (filter (fun b => b) bs)) = 1.
Proof.
  induction 1 as [|s b l bs A F IH]; intros n c c' L E; cbn [one_loop] in E.
  - cbn [filter List.length]. destruct (N.eqb_spec n 0); [discriminate|lia].
  - specialize (A no_errors). destruct b; cbn [filter List.length].
    + rewrite A in E. cbn [rbind failed no_errors c_err c_serr orb] in E. assert (wrap32 (n + 1) = n + 1) as W by (unfold wrap32; apply N.mod_small; lia). rewrite W in E.
      destruct (N.ltb_spec 1 (n + 1)); [discriminate|]. apply IH in E; lia.
    + destruct A as [c2 A]. rewrite A in E. cbn [rbind] in E. destruct (N.ltb_spec 1 n); [lia|]. exact (IH n c c' L E).
Qed.
Lemma group_inv rx get_schema d g v ids paths f : vsorted v -> g_exclusive g = true -> nodup N.eq_dec (g_members g) = ids ->
  flat_map (fun id => match find_opt d id with Some o => [present (path_keys (o_path o))] | None => [] end) ids = List.map present paths ->
  (forall ks, In ks paths -> mapped v ks /\ (List.length ks <= 95)%nat) ->
  (99 <= f)%nat -> (forall s, In s (gen_group d g) -> validate rx get_schema f 1 s v no_errors = Ok (Go no_errors)) ->
  let n := List.length (filter (fun ks => match vat v (keys ks) with Some _ => true | None => false end) paths) in (n = 1 \/ n = 0 /\ g_required g = false)%nat.
Proof.
  intros SV GE GM FM PA F E. unfold gen_group in E. rewrite GE, GM, FM in E. specialize (E _ (or_introl eq_refl)). destruct f as [|f]; [lia|].
  set (h := fun ks => match vat v (keys ks) with Some _ => true | None => false end). cbv zeta.
  assert (AN : forall f dep, (96 <= f)%nat -> dep <= 4 -> Forall2 (answer (validate rx get_schema f dep) v) (List.map present paths) (List.map h paths)).
  { intros f' dep' F' D'. clear FM E. induction paths as [|ks l IH]; [constructor|]. cbn [List.map]. constructor; [|apply IH; intros; apply PA; now right].
    destruct (PA ks (or_introl eq_refl)) as [M L]. intros c'. assert (G := present_go rx get_schema ks v f' dep' c' SV M). unfold h. destruct (vat v (keys ks)); apply G; lia. }
  cbn [validate] in E. change (RECURSION_LIMIT <? 1 + 1) with false in E. cbv iota in E. rewrite lone_map in E by (cbn; tauto).
  unfold validate_combinations, validate_all, validate_any, validate_not in E. change (key "allOf" _) with (@None value) in E. change (key "anyOf" _) with (@None value) in E. change (key "not" _) with (@None value) in E. cbn [next rbind] in E.
  apply next_inv in E. destruct E as (c1 & E & _). unfold validate_one, key in E. cbn [mget] in E. rewrite beqb_refl in E.
  destruct (g_required g) eqn:RQ.
  - apply (one_inv _ _ _ (List.map h paths)) in E; [|apply AN; lia|lia]. rewrite filter_map_id in E. left. lia.
  - apply (one_inv _ _ _ (List.map h paths ++ [negb (existsb h paths)])) in E; [| |lia].
    + rewrite filter_app, app_length, filter_map_id in E. destruct (existsb h paths); cbn [negb filter List.length] in E; [left; lia|right; split; [lia|reflexivity]].
    + apply Forall2_app; [apply AN; lia|]. constructor; [|constructor]. intros c'. destruct f as [|f]; [lia|]. cbn [validate]. change (RECURSION_LIMIT <? 1 + 1 + 1) with false. cbv iota. rewrite lone_map by (cbn; tauto).
      unfold validate_combinations, validate_all, validate_any, validate_one. change (key "allOf" _) with (@None value). change (key "anyOf" [(s2b "not", VMap [(s2b "anyOf", VList (List.map present paths))])]) with (@None value). change (key "oneOf" _) with (@None value). cbn [next rbind].
      unfold validate_not, key. cbn [mget]. rewrite beqb_refl. destruct f as [|f]; [lia|]. cbn [validate]. change (RECURSION_LIMIT <? 1 + 1 + 1 + 1) with false. cbv iota. rewrite lone_map by (cbn; tauto).
      unfold validate_combinations, validate_all. change (key "allOf" _) with (@None value). cbn [next rbind]. unfold validate_any. change (key "anyOf" [(s2b "anyOf", VList (List.map present paths))]) with (Some (VList (List.map present paths))). cbv iota.
      assert (Q := any_go (validate rx get_schema f (1 + 1 + 1 + 1)) v _ _ no_errors (AN f (1 + 1 + 1 + 1) ltac:(lia) ltac:(lia))). rewrite existsb_map_id in Q. destruct (existsb h paths); cbn [negb].
      * rewrite Q. cbn [next rbind]. unfold validate_one, validate_not. change (key "oneOf" _) with (@None value). change (key "not" _) with (@None value). cbn [next rbind failed no_errors c_err c_serr orb]. unfold add_error. eauto.
      * destruct Q as [c2 ->]. cbn [next rbind]. reflexivity.
Qed.
Lemma two_in {T} (f : T -> bool) l i j : NoDup l -> In i l -> In j l -> i <> j -> f i = true -> f j = true -> (2 <= List.length (filter f l))%nat.
Proof.
  intros ND II IJ NE FI FJ. assert (X : incl [i; j] (filter f l)) by (intros x [<- | [<- | []]]; apply filter_In; auto).
  apply NoDup_incl_length in X; [exact X|]. constructor; [intros [-> | []]; congruence|]. constructor; [intros []|constructor].
Qed.
Lemma vat_vok p : forall v w, vok v -> vat v p = Some w -> vok w.
Proof.
  induction p as [|e p IH]; intros v w V E; cbn [vat] in E; [congruence|]. destruct (vchild v e) as [x|] eqn:C; [|discriminate]. apply (IH x); [|exact E].
  destruct v as [| | | | | |l|m|], e as [k|i]; cbn [vchild] in C; try discriminate.
  - apply vok_list in V. rewrite Forall_forall in V. apply V. eapply nth_error_In. exact C.
  - apply vok_map in V. destruct V as [_ V]. rewrite Forall_forall in V. apply mget_In in C. exact (V _ C).
Qed.

(** ** The theorems *)
Lemma whole_leads rx get_schema d l schema f v : NoDup l -> (forall a b, In a l -> In b l -> a = b \/ diverge (o_path a) (o_path b)) ->
  (forall o, In o l -> exists ks, o_path o = keys ks /\ ks <> []) -> gen_schema d l = Ok schema -> schema_validate rx get_schema f schema v = Ok no_errors ->
  validate rx get_schema f 0 schema v no_errors = Ok (Go no_errors) /\
  (exists s, gen_all l (VMap []) = Ok s /\ schema = gen_groups d s) /\
  forall o, In o l -> exists leaf, gen_leaf o = Ok leaf /\ leads schema (path_keys (o_path o)) (o_required o) (VMap leaf).
Proof.
  intros ND DV KEY GEN E. split.
  { unfold schema_validate in E. destruct (validate rx get_schema f 0 schema v no_errors) as [[c|c]| | | |] eqn:X; cbn [rbind] in E; try discriminate; [congruence|].
    exfalso. apply (proj2 (clean_validate rx get_schema f 0 schema v no_errors)). congruence. }
  unfold gen_schema in GEN. apply P_ArgParse.bind_ok in GEN. destruct GEN as (s & GA & GEN). injection GEN as <-. split; [eauto|].
  destruct (all_leads l (VMap []) s) as [H _]; [intros; apply shape_nil| |exact GA|].
  - clear GA E. induction ND as [|o l NI ND IH]; constructor.
    + rewrite Forall_forall. intros x IX. destruct (DV o x (or_introl eq_refl) (or_intror IX)) as [-> | D]; [contradiction|].
      destruct (KEY o (or_introl eq_refl)) as (ks & P & _). destruct (KEY x (or_intror IX)) as (ks' & P' & _). rewrite P, P' in *. rewrite !path_keys_keys. now apply diverge_apart.
    + apply IH; [intros a b IA IB; apply DV; now right|intros x IX; apply KEY; now right].
  - intros o IO. destruct (H o IO) as (leaf & GL & L). exists leaf. split; [exact GL|]. apply groups_leads; [|exact L]. destruct (KEY o IO) as (ks & -> & NE). now rewrite path_keys_keys.
Qed.
(** In every Variant that the generated schema accepts without errors, every required option is there, and what is at the place of an option fits it. *)
Theorem C53_strict_partial rx get_schema d l schema f v : NoDup l -> (forall a b, In a l -> In b l -> a = b \/ diverge (o_path a) (o_path b)) ->
  (forall o, In o l -> exists ks, o_path o = List.map PKey ks /\ ks <> []) -> vok v ->
  gen_schema d l = Ok schema -> schema_validate rx get_schema f schema v = Ok no_errors ->
  forall o, In o l -> (o_required o = true -> vat v (o_path o) <> None) /\ forall w, vat v (o_path o) = Some w -> fitting rx o w.
Proof.
  intros ND DV KEY V GEN E o IO. destruct (whole_leads rx get_schema d l schema f v ND DV KEY GEN E) as (VA & _ & H). destruct (H o IO) as (leaf & GL & L).
  destruct (KEY o IO) as (ks & P & _). fold (keys ks) in P. rewrite P, path_keys_keys in *. destruct (leads_inv rx get_schema ks schema v _ _ f 0 L VA) as (_ & R & W). split; [exact R|].
  intros w AT. destruct (W w AT) as (f' & dep' & E'). apply (leaf_inv rx get_schema o leaf w f' dep' GL); [|exact E']. exact (vat_vok _ _ _ V AT).
Qed.
Print Assumptions C53_strict_partial.
(** And of the options of a group that exclude each other no two are there, and one if the group is required. *)
Theorem C53_strict_groups_partial rx get_schema d l schema f v : NoDup (List.map o_id (d_opts d)) -> NoDup l -> (forall a b, In a l -> In b l -> a = b \/ diverge (o_path a) (o_path b)) ->
  (forall o, In o l -> exists ks, o_path o = List.map PKey ks /\ ks <> [] /\ (List.length ks <= 95)%nat) -> (forall o, In o l <-> In o (d_opts d)) -> (100 <= f)%nat -> vok v ->
  gen_schema d l = Ok schema -> schema_validate rx get_schema f schema v = Ok no_errors ->
  forall g, In g (d_groups d) -> g_exclusive g = true -> incl (g_members g) (List.map o_id (d_opts d)) ->
  (forall a b, In a (d_opts d) -> In b (d_opts d) -> In (o_id a) (g_members g) -> In (o_id b) (g_members g) -> vat v (o_path a) <> None -> vat v (o_path b) <> None -> a = b) /\
  (g_required g = true -> exists o, In o (d_opts d) /\ In (o_id o) (g_members g) /\ vat v (o_path o) <> None).
Proof.
  intros NI ND DV KEY SAME F V GEN E g IG GE INC.
  assert (KEY' : forall o, In o l -> exists ks, o_path o = keys ks /\ ks <> []) by (intros o IO; destruct (KEY o IO) as (ks & P & NE & _); eauto).
  destruct (whole_leads rx get_schema d l schema f v ND DV KEY' GEN E) as (VA & (s & GA & ->) & H).
  assert (MAP : forall o, In o l -> mapped v (path_keys (o_path o))) by (intros o IO; destruct (H o IO) as (leaf & _ & L); apply (leads_inv rx get_schema _ _ v _ _ f 0 L VA)).
  assert (SV := vok_sorted v V).
  (* the schemas of the groups are used *)
  assert (GS : forall x, In x (gen_group d g) -> exists f', f = S f' /\ validate rx get_schema f' 1 x v no_errors = Ok (Go no_errors)).
  { intros x IX. destruct f as [|f]; [lia|]. exists f. split; [reflexivity|]. unfold gen_groups in VA.
    assert (IN : In x (flat_map (gen_group d) (d_groups d))) by (apply in_flat_map; eauto).
    destruct (flat_map (gen_group d) (d_groups d)) as [|g0 gl] eqn:GR; [destruct IN|]. cbn [validate] in VA. change (RECURSION_LIMIT <? 0 + 1) with false in VA. cbv iota in VA. change (0 + 1) with 1 in VA.
    assert (SC := clean_validate rx get_schema f 1). apply (map_inv rx get_schema _ SC) in VA. destruct VA as (_ & _ & _ & _ & _ & _ & _ & CO).
    assert (SM : msorted (match s with VMap m => m | _ => [] end)).
    { destruct l as [|o l0].
      - cbn [gen_all] in GA. injection GA as <-. exact I.
      - destruct (KEY' o (or_introl eq_refl)) as (ks & P & NE). destruct (H o (or_introl eq_refl)) as (leaf & _ & L). rewrite P, path_keys_keys in L. destruct ks as [|k ks]; [congruence|].
        destruct (all_leads (o :: l0) (VMap []) s) as [H' _]; [intros; apply shape_nil| |exact GA|].
        + clear -ND DV KEY'. revert ND DV KEY'. generalize (o :: l0). intros l ND DV KEY. induction ND as [|o' l NI ND IH]; constructor.
          * rewrite Forall_forall. intros y IY. destruct (DV o' y (or_introl eq_refl) (or_intror IY)) as [-> | D]; [contradiction|].
            destruct (KEY o' (or_introl eq_refl)) as (k1 & P1 & _). destruct (KEY y (or_intror IY)) as (k2 & P2 & _). rewrite P1, P2 in *. rewrite !path_keys_keys. now apply diverge_apart.
          * apply IH; [intros a b IA IB; apply DV; now right|intros y IY; apply KEY; now right].
        + destruct (H' o (or_introl eq_refl)) as (leaf' & _ & L'). rewrite P, path_keys_keys in L'. destruct L' as (m & ps & rq & s' & -> & OB & _). apply OB. }
    unfold validate_combinations in CO. apply next_inv in CO. destruct CO as (c1 & CO & C2).
    assert (c1 = no_errors) as ->.
    { assert (X : clean (fun c => next (validate_any (validate rx get_schema f 1) (mset (s2b "allOf") (VList (g0 :: gl)) match s with VMap m => m | _ => [] end) v c) (fun c => next (validate_one (validate rx get_schema f 1) (mset (s2b "allOf") (VList (g0 :: gl)) match s with VMap m => m | _ => [] end) v c) (validate_not (validate rx get_schema f 1) (mset (s2b "allOf") (VList (g0 :: gl)) match s with VMap m => m | _ => [] end) v)))).
      { apply (clean_seq (validate_any _ _ v)).
        { unfold validate_any. destruct (key "anyOf" _) as [[| | | | | |l1| |]|]; try apply clean_serr; [apply clean_any|apply clean_go]. }
        apply (clean_seq (validate_one _ _ v)).
        { unfold validate_one. destruct (key "oneOf" _) as [[| | | | | |l1| |]|]; try apply clean_serr; [apply clean_one|apply clean_go]. }
        unfold validate_not. cl. }
      exact (proj1 (X c1) C2). }
    unfold validate_all, key in CO. rewrite mget_mset, beqb_refl in CO by exact SM. apply (each_all (fun s0 => validate rx get_schema f 1 s0 v)) with (x := x) in CO; auto. }
  set (ids := nodup N.eq_dec (g_members g)).
  set (pk := fun i => match find_opt d i with Some o => path_keys (o_path o) | None => [] end).
  assert (PK : forall i, In i ids -> exists o, In o (d_opts d) /\ o_id o = i /\ find_opt d i = Some o /\ pk i = path_keys (o_path o)).
  { intros i II. subst ids. rewrite nodup_In in II. apply INC in II. apply in_map_iff in II. destruct II as (o & <- & IO). exists o. subst pk. cbv beta. rewrite (find_opt_in d o NI IO). auto. }
  assert (CN := group_inv rx get_schema d g v ids (List.map pk ids) (Nat.pred f) SV GE eq_refl). cbv zeta in CN.
  set (h := fun ks => match vat v (keys ks) with Some _ => true | None => false end) in CN.
  assert (HO : forall o, In o (d_opts d) -> h (path_keys (o_path o)) = true <-> vat v (o_path o) <> None).
  { intros o IO. apply SAME in IO. destruct (KEY o IO) as (ks & P & _). fold (keys ks) in P. rewrite P, path_keys_keys. unfold h. destruct (vat v (keys ks)); split; congruence. }
  assert (FL : forall q, List.length (filter h (List.map pk q)) = List.length (filter (fun i => h (pk i)) q)) by (induction q as [|i q IH]; [reflexivity|]; cbn [List.map filter]; destruct (h (pk i)); cbn [List.length]; congruence).
  assert (CN' : let n := List.length (filter (fun i => h (pk i)) ids) in (n = 1 \/ n = 0 /\ g_required g = false)%nat).
  { cbv zeta. rewrite <- FL. apply CN.
    - clear -PK. subst pk. induction ids as [|i ids IH]; [reflexivity|]. cbn [flat_map List.map]. destruct (PK i (or_introl eq_refl)) as (o & _ & _ & FO & _). rewrite FO. cbn [app]. f_equal. apply IH. intros j IJ. apply PK. now right.
    - intros ks IK. apply in_map_iff in IK. destruct IK as (i & <- & II). destruct (PK i II) as (o & IO & _ & _ & ->). apply SAME in IO. split; [apply MAP, IO|]. destruct (KEY o IO) as (q & P & _ & LQ). fold (keys q) in P. now rewrite P, path_keys_keys.
    - lia.
    - intros x IX. destruct (GS x IX) as (f' & -> & VX). exact VX. }
  clear CN. cbv zeta in CN'. split.
  - intros a b IA IB GA' GB PA PB. destruct (N.eq_dec (o_id a) (o_id b)) as [Q | Q].
    + assert (X := find_opt_in d a NI IA). assert (Y := find_opt_in d b NI IB). rewrite Q in X. congruence.
    + exfalso. assert (X : (2 <= List.length (filter (fun i => h (pk i)) ids))%nat); [|lia]. apply (two_in _ _ (o_id a) (o_id b)); auto.
      * apply NoDup_nodup.
      * subst ids. now rewrite nodup_In.
      * subst ids. now rewrite nodup_In.
      * subst pk. cbv beta. rewrite (find_opt_in d a NI IA). now apply HO.
      * subst pk. cbv beta. rewrite (find_opt_in d b NI IB). now apply HO.
  - intros RQ. destruct CN' as [N1 | [_ N1]]; [|congruence]. destruct (filter (fun i => h (pk i)) ids) as [|i t] eqn:FI; [discriminate|].
    assert (IX : In i (filter (fun i => h (pk i)) ids)) by (rewrite FI; now left). apply filter_In in IX. destruct IX as [II HI]. destruct (PK i II) as (o & IO & ID & _ & P). exists o. split; [exact IO|].
    split; [rewrite ID; subst ids; now rewrite nodup_In in II|]. apply HO; [exact IO|]. now rewrite <- P.
Qed.
Print Assumptions C53_strict_groups_partial.
(** The description of C53_case with what Parse returns for it; C53_case_refused has Variants that are not accepted. *)
Example C53_strict_case : exists schema v, let l := d_opts s53_d in NoDup (List.map o_id l) /\ NoDup l /\ (forall a b, In a l -> In b l -> a = b \/ diverge (o_path a) (o_path b)) /\
  (forall o, In o l -> exists ks, o_path o = List.map PKey ks /\ ks <> [] /\ (List.length ks <= 95)%nat) /\ vok v /\ v <> VMap [] /\
  gen_schema s53_d l = Ok schema /\ schema_validate no_rx (fun _ => Throw RuntimeError) 100 schema v = Ok no_errors /\
  exists g, In g (d_groups s53_d) /\ g_exclusive g = true /\ incl (g_members g) (List.map o_id l).
Proof.
  destruct C53_case as (st & r & schema & PL & ND & FP & HO & HG & RUN & FORM & R & NE & NDL & GEN & _). exists schema, r. cbv zeta.
  assert (VA : schema_validate no_rx (fun _ => Throw RuntimeError) 100 schema r = Ok no_errors).
  { refine (C53_valid_partial no_flt no_rx no_env no_load no_stale (fun _ => Throw RuntimeError) s53_d 0 s53_evs [] st r (d_opts s53_d) schema 100 PL ND FP HO HG RUN FORM NE NDL (incl_refl _) GEN (le_n _)). }
  split; [exact ND|]. split; [exact NDL|]. split.
  { intros a b IA IB. destruct (ForallOrdPairs_In FP a b IA IB) as [-> | [D | D]]; [left; reflexivity| |right; exact D]. right.
    clear -D. destruct D as (x & e & e' & p & q & -> & -> & N). exists x, e', e, q, p. auto. }
  split; [intros o IO; apply (HO o IO)|]. split.
  { rewrite R. clear. vm_compute. repeat split; try discriminate; intros k IK; repeat (destruct IK as [<- | IK]; [reflexivity|]); destruct IK. }
  split; [rewrite R; discriminate|]. split; [exact GEN|]. split; [exact VA|].
  exists (AGroup (s2b "g") [chr "a"; chr "b"] false true). assert (IG : In (AGroup (s2b "g") [chr "a"; chr "b"] false true) (d_groups s53_d)) by (left; reflexivity).
  split; [exact IG|]. split; [reflexivity|]. exact (HG _ IG).
Qed.
(** The schema of an option that appends does not say that its values are a list (src/ArgParse.cc:1817-1836). *)
Theorem C53_append_refuted : exists d, d = one "n" "n" AAppend IntegerType /\
  s53_valid d (d_opts d) (Ok (VMap [(s2b "n", VStr (s2b "abc"))])) = Ok no_errors.
Proof. eexists. split; [reflexivity|]. vm_compute. reflexivity. Qed.
Print Assumptions C53_append_refuted.
(** Nor does the schema say that there is nothing else. *)
Theorem C53_unknown_refuted : exists d, d = one "n" "n" AStore IntegerType /\
  s53_valid d (d_opts d) (Ok (VMap [(s2b "m", VInt 3)])) = Ok no_errors.
Proof. eexists. split; [reflexivity|]. vm_compute. reflexivity. Qed.
Print Assumptions C53_unknown_refuted.
