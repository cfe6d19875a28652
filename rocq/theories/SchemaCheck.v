(** A check that a schema can be used on some data (for the examples). *)
From Verif Require Import Base Float Value Numeric NumberSpec P_Equal ParserInput SchemaSem.
From Coq Require Import Reals SpecFloat.
Open Scope N_scope.

Fixpoint sortedb {A} (m : list (bytes * A)) : bool :=
  match m with [] => true | (k, _) :: t => (forallb (fun k' => match bcmp k k' with Lt => true | _ => false end) (mkeys t) && sortedb t)%bool end.
Lemma sortedb_ok {A} (m : list (bytes * A)) : sortedb m = true -> msorted m.
Proof.
  induction m as [|[k v] m IH]; cbn [sortedb msorted]; [auto|]. intros E. apply Bool.andb_true_iff in E as [E1 E2]. split; [|auto].
  intros k' I. rewrite forallb_forall in E1. specialize (E1 k' I). destruct (bcmp k k'); congruence.
Qed.
(** [vok] and [plain]. *)
Fixpoint fine (v : value) : bool :=
  match v with
  | VNull | VBool _ | VStr _ => true
  | VInt z => ((- 2^63 <=? z) && (z <? 2^63))%Z
  | VUns n => n <? 2^64
  | VFlt x => (SpecFloat.valid_binary 64 16384 x && match x with S754_nan => false | _ => true end)%bool
  | VList l => (fix go l := match l with [] => true | x :: t => (fine x && go t)%bool end) l
  | VMap m => (sortedb m && (fix go m := match m with [] => true | kv :: t => (fine (snd kv) && go t)%bool end) m)%bool
  | VBlob _ => false
  end.
Lemma fine_num v : fine v = true -> is_num (type_of v) = true -> exists x, num_val v = Some x.
Proof.
  intros F N. destruct v as [| | | |x| | | |]; try discriminate N; cbn [num_val]; try (eexists; reflexivity).
  destruct x as [| []| |]; try (eexists; reflexivity). vm_compute in F. discriminate F.
Qed.
Lemma fine_ok v : fine v = true -> vok v /\ plain v.
Proof.
  induction v as [| |z|n|x| |l IH|m IH|] using value_ind'; intros F; try discriminate; try (split; [exact I|constructor]).
  - split; [|eapply plain_num; reflexivity]. cbn [fine vok] in *. lia.
  - split; [|eapply plain_num; reflexivity]. cbn [fine vok] in *. lia.
  - split; [|destruct (fine_num _ F eq_refl) as [y Y]; eapply plain_num; exact Y]. cbn [fine vok] in *. apply Bool.andb_true_iff in F as [F _]. exact F.
  - cbn [fine] in F. enough (X : vok (VList l) /\ Forall plain l) by (split; [tauto|constructor; tauto]).
    induction IH as [|x l Hx _ IHl]; [split; [exact I|constructor]|]. apply Bool.andb_true_iff in F as [F1 F2].
    destruct (Hx F1), (IHl F2) as [X Y]. split; [split; [assumption|exact X]|constructor; assumption].
  - cbn [fine] in F. apply Bool.andb_true_iff in F as [S F]. apply sortedb_ok in S.
    enough (X : (fix go m := match m with [] => True | kv :: t => vok (snd kv) /\ go t end) m /\ Forall (fun p => plain (snd p)) m)
      by (split; [split; [exact S|tauto]|constructor; tauto]).
    clear S. induction IH as [|x l Hx _ IHl]; [split; [exact I|constructor]|]. apply Bool.andb_true_iff in F as [F1 F2].
    destruct (Hx F1), (IHl F2) as [X Y]. split; [split; [assumption|exact X]|constructor; assumption].
Qed.

Definition opt (o : option value) (f : value -> bool) : bool := match o with None => true | Some b => f b end.
Definition among_b (s : bytes) (l : list bytes) : bool := existsb (beqb s) l.
Lemma among_ok s l : among_b s l = true <-> In s l.
Proof.
  unfold among_b. rewrite existsb_exists. split; [intros (x & X & E); apply beqb_eq in E; subst; exact X|intros X; exists s; split; [exact X|apply beqb_refl]].
Qed.
Definition nulfreeb (s : bytes) : bool := negb (existsb (fun c => bval c =? 0) s).
Lemma nulfree_ok s : nulfreeb s = true -> nul_free s.
Proof.
  unfold nulfreeb, nul_free. intros E I. apply Bool.negb_true_iff in E. assert (X : existsb (fun c => bval c =? 0) s = true); [|congruence].
  apply existsb_exists. exists (bchr 0). split; [exact I|reflexivity].
Qed.
Definition is_str (x : value) : bool := match x with VStr _ => true | _ => false end.
Definition is_bool (x : value) : bool := match x with VBool _ => true | _ => false end.

Section Check.
  Variable rx : bytes -> option (bytes -> bool).
  Variable get_schema : bytes -> res value.
  Definition compiles (p : bytes) : bool := match rx p with Some _ => true | None => false end.

  Section One.
    Variable U : value -> value -> bool.
    Variable m : list (bytes * value).
    Definition countb (k : String.string) : bool := opt (kw k m) (fun b => (fine b && match count_of b with Some _ => true | None => false end)%bool).
    Definition flagb (k : String.string) : bool := opt (kw k m) is_bool.
    Definition numb (k : String.string) : bool := opt (kw k m) (fun b => (fine b && is_num (type_of b))%bool).
    Definition name_ok (x : value) : bool := match x with VStr s => among_b s type_names | _ => false end.
    Definition basicb : bool :=
      (opt (kw "type" m) (fun t => match t with VList l => forallb name_ok l | _ => name_ok t end) &&
       opt (kw "enum" m) (fun b => match b with VList l => forallb fine l | _ => false end))%bool.
    Definition numericb (d : value) : bool :=
      if is_num (type_of d) then
        (match kw "divisibleBy" m with None => true | Some _ => false end &&
         (opt (kw "multipleOf" m) (fun b => (fine b && match whole b, whole d with
            | Some y, Some z => (0 <? y)%Z && ((0 <=? z)%Z || match b with VInt _ => true | _ => false end) | _, _ => false end)%bool) &&
         (numb "minimum" && (numb "maximum" && (flagb "exclusiveMinimum" && flagb "exclusiveMaximum")))))%bool
      else true.
    Definition stringb (d : value) : bool :=
      match d with
      | VStr s =>
          ((llen s <? 2^32) && (countb "minLength" && (countb "maxLength" &&
           (match kw "minLength" m, kw "maxLength" m with None, None => true | _, _ => forallb (fun c => bval c <? 128) s end &&
           (opt (kw "pattern" m) (fun b => match b with VStr p => (nulfreeb p && (nulfreeb s && compiles p))%bool | _ => false end) &&
            opt (kw "format" m) (fun f => match f with VStr f => negb (among_b f (List.map s2b ["regex"; "date-time"; "date"; "time"]%string)) | _ => true end))))))%bool
      | _ => true
      end.
    Definition addb (k : String.string) (x : value) : bool := opt (kw k m) (fun s => (is_bool s || U s x)%bool).
    Fixpoint itemsb (ss l : list value) : bool :=
      match l with
      | [] => true
      | x :: t => match ss with s :: ss => (U s x && itemsb ss t)%bool | [] => (addb "additionalItems" x && itemsb [] t)%bool end
      end.
    Definition arrayb (d : value) : bool :=
      match d with
      | VList l => ((llen l <? 2^32) && (countb "minItems" && (countb "maxItems" && (flagb "uniqueItems" &&
          opt (kw "items" m) (fun b => match b with VList ss => ((llen ss <? 2^32) && itemsb ss l)%bool | s => forallb (U s) l end)))))%bool
      | _ => true
      end.
    Definition entryb (kv : bytes * value) : bool :=
      (match kw "properties" m with Some (VMap ps) => opt (mget (fst kv) ps) (fun s => U s (snd kv)) | _ => true end &&
       (match kw "patternProperties" m with
        | Some (VMap ps) => forallb (fun p => match rx (fst p) with Some f => if f (fst kv) then U (snd p) (snd kv) else true | None => true end) ps
        | _ => true
        end && addb "additionalProperties" (snd kv)))%bool.
    Definition objectb (d : value) : bool :=
      match d with
      | VMap fs =>
          ((llen fs <? 2^32) && (countb "minProperties" && (countb "maxProperties" &&
           (opt (kw "required" m) (fun b => match b with VList l => forallb is_str l | _ => false end) &&
           (opt (kw "properties" m) (fun b => match b with VMap _ => true | _ => false end) &&
           (opt (kw "patternProperties" m) (fun b => match b with VMap ps => (forallb nulfreeb (mkeys fs) && forallb (fun p => (nulfreeb (fst p) && compiles (fst p))%bool) ps)%bool | _ => false end) &&
           (forallb entryb fs &&
            opt (kw "dependencies" m) (fun b => match b with
              | VMap deps => (sortedb deps && forallb (fun kd => match snd kd with
                  | VList l => ((llen l <? 2^32) && forallb is_str l)%bool | VMap _ => U (snd kd) d | _ => false end) deps)%bool
              | _ => false end))))))))%bool
      | _ => true
      end.
    Definition schemasb (d : value) (k : String.string) : bool := opt (kw k m) (fun b => match b with VList l => forallb (fun s => U s d) l | _ => false end).
    Definition combb (d : value) : bool :=
      (schemasb d "allOf" && (schemasb d "anyOf" && (schemasb d "oneOf" && opt (kw "not" m) (fun s => U s d))))%bool.
    Definition mapb (d : value) : bool :=
      (fine d && (match d with VFlt x => f_finite x | _ => true end &&
       match kw "$ref" m with
       | Some (VStr u) => (forallb (fun k => match kw k m with None => true | Some _ => false end) keywords &&
                           match get_schema u with Ok s => U s d | _ => false end)%bool
       | Some _ => false
       | None => (basicb && (numericb d && (stringb d && (arrayb d && (objectb d && combb d)))))%bool
       end))%bool.

    Variable V : value -> value -> Prop.
    Hypothesis UV : forall s d, U s d = true -> V s d.

    Ltac ands := repeat match goal with H : (_ && _)%bool = true |- _ => apply Bool.andb_true_iff in H; destruct H end.
    Ltac pre H K := unfold opt in H; rewrite K in H.

    Lemma count_ok k : countb k = true -> w_count m k.
    Proof. unfold countb. intros E b K. pre E K. ands. split; [apply fine_ok; assumption|]. destruct (count_of b); congruence. Qed.
    Lemma flag_ok k : flagb k = true -> w_flag m k.
    Proof. unfold flagb. intros E b K. pre E K. destruct b; try discriminate. eauto. Qed.
    Lemma num_ok k : numb k = true -> w_number m k.
    Proof. unfold numb. intros E b K. pre E K. ands. split; [apply fine_ok; assumption|apply fine_num; assumption]. Qed.
    Lemma name_ok_ok x : name_ok x = true -> exists s, x = VStr s /\ In s type_names.
    Proof. destruct x; try discriminate. cbn [name_ok]. intros E. apply among_ok in E. eauto. Qed.
    Lemma basic_ok d : basicb = true -> w_basic m d.
    Proof.
      unfold basicb. intros E. ands. split.
      - intros t K. pre H K. assert (X : name_ok t = true -> exists s, t = VStr s /\ In s type_names) by apply name_ok_ok.
        destruct t; try (left; apply X; exact H). right. exists l. split; [reflexivity|]. rewrite forallb_forall in H. intros x I. apply name_ok_ok, H, I.
      - intros b K. pre H0 K. destruct b; try discriminate. exists l. split; [reflexivity|]. apply Forall_forall. rewrite forallb_forall in H0. intros x I. apply fine_ok, H0, I.
    Qed.
    Lemma numeric_ok d : numericb d = true -> w_numeric m d.
    Proof.
      unfold numericb. intros E x X. rewrite (num_is_num d x X) in E. ands. split; [destruct (kw "divisibleBy" m); congruence|]. split.
      - intros b K. pre H0 K. ands. split; [apply fine_ok; assumption|]. destruct (whole b) as [y|]; [|discriminate]. destruct (whole d) as [z|]; [|discriminate]. ands.
        exists y, z. do 2 (split; [reflexivity|]). split; [lia|]. apply Bool.orb_true_iff in H6 as [Q|Q]; [left; lia|right]. destruct b; try discriminate. eauto.
      - split; [apply num_ok; assumption|]. split; [apply num_ok; assumption|]. split; apply flag_ok; assumption.
    Qed.
    Lemma string_ok d : stringb d = true -> w_string rx m d.
    Proof.
      intros E s ->. unfold stringb in E. ands. split; [lia|]. split; [apply count_ok; assumption|]. split; [apply count_ok; assumption|]. split; [|split].
      - intros Q. apply Forall_forall. intros c I. destruct (kw "minLength" m), (kw "maxLength" m); try (rewrite forallb_forall in H2; specialize (H2 c I); lia).
        destruct Q; congruence.
      - intros b K. pre H3 K. destruct b as [| | | | |p| | |]; try discriminate. ands. exists p. split; [reflexivity|]. split; [apply nulfree_ok; assumption|]. split; [apply nulfree_ok; assumption|].
        unfold compiles in *. destruct (rx p); congruence.
      - intros f K. pre H4 K. intros I. apply among_ok in I. rewrite I in H4. discriminate.
    Qed.
    Lemma add_ok k x : addb k x = true -> w_additional V m k x.
    Proof. unfold addb. intros E s K. pre E K. apply Bool.orb_true_iff in E as [E|E]; [right; destruct s; try discriminate; eauto|left; auto]. Qed.
    Lemma items_ok l : forall ss, itemsb ss l = true -> forall i x, nth_error l i = Some x -> match nth_error ss i with Some s => V s x | None => w_additional V m "additionalItems" x end.
    Proof.
      induction l as [|y l IH]; intros ss E [|i] x N; try discriminate; destruct ss as [|s ss]; cbn [itemsb nth_error] in *; apply Bool.andb_true_iff in E as [E1 E2].
      - injection N as <-. apply add_ok, E1.
      - injection N as <-. apply UV, E1.
      - specialize (IH [] E2 i x N). destruct i; exact IH.
      - exact (IH ss E2 i x N).
    Qed.
    Lemma array_ok d : arrayb d = true -> w_array V m d.
    Proof.
      intros E l ->. unfold arrayb in E. ands. split; [lia|]. split; [apply count_ok; assumption|]. split; [apply count_ok; assumption|]. split; [apply flag_ok; assumption|].
      intros b K. pre H3 K. assert (X : forallb (U b) l = true -> Forall (V b) l) by (rewrite forallb_forall, Forall_forall; auto).
      destruct b; try (apply X; exact H3). ands. split; [lia|]. apply items_ok. assumption.
    Qed.
    Lemma object_ok d : objectb d = true -> w_object rx V m d.
    Proof.
      intros E fs ->. unfold objectb in E. ands. split; [lia|]. split; [apply count_ok; assumption|]. split; [apply count_ok; assumption|]. split; [|split; [|split; [|split]]].
      - intros b K. pre H2 K. destruct b; try discriminate. exists l. split; [reflexivity|]. rewrite forallb_forall in H2. intros x I. specialize (H2 x I). destruct x; try discriminate. eauto.
      - intros b K. pre H3 K. destruct b; try discriminate. eauto.
      - intros b K. pre H4 K. destruct b as [| | | | | | |ps|]; try discriminate. ands. rewrite forallb_forall in *. split; [intros k I; apply nulfree_ok; auto|]. exists ps. split; [reflexivity|].
        intros p s I. match goal with Q : forall x, In x ps -> _ |- _ => specialize (Q (p, s) I) end. cbn [fst] in *. ands. split; [apply nulfree_ok; assumption|]. unfold compiles in *. destruct (rx p); congruence.
      - intros k x G. apply mget_In in G. rewrite forallb_forall in H5. specialize (H5 (k, x) G). unfold entryb in H5. cbn [fst snd] in H5. ands. split; [|split].
        + intros s (ps & K & Gs). rewrite K in *. match goal with Q : opt (mget k ps) _ = true |- _ => rewrite Gs in Q; apply UV; exact Q end.
        + intros s (ps & p & f & K & Ip & R & T). rewrite K in *. match goal with Q : forallb _ ps = true |- _ => rewrite forallb_forall in Q; specialize (Q (p, s) Ip); cbn [fst snd] in Q; rewrite R, T in Q; apply UV; exact Q end.
        + apply add_ok. assumption.
      - intros b K. pre H6 K. destruct b as [| | | | | | |deps|]; try discriminate. ands. exists deps. split; [reflexivity|]. split; [apply sortedb_ok; assumption|].
        intros k dep G. apply mget_In in G. match goal with Q : forallb _ deps = true |- _ => rewrite forallb_forall in Q; specialize (Q (k, dep) G); cbn [snd] in Q; rename Q into Z end.
        destruct dep; try discriminate; [|apply UV; exact Z]. apply Bool.andb_true_iff in Z as [Z1 Z2]. split; [lia|]. rewrite forallb_forall in Z2. intros x I. specialize (Z2 x I). destruct x; try discriminate. eauto.
    Qed.
    Lemma schemas_ok d k : schemasb d k = true -> w_schemas V m d k.
    Proof. unfold schemasb. intros E b K. pre E K. destruct b; try discriminate. exists l. split; [reflexivity|]. apply Forall_forall. rewrite forallb_forall in E. auto. Qed.
    Lemma comb_ok d : combb d = true -> w_combinations V m d.
    Proof.
      unfold combb. intros E. ands. split; [apply schemas_ok; assumption|]. split; [apply schemas_ok; assumption|]. split; [apply schemas_ok; assumption|].
      intros s K. pre H2 K. auto.
    Qed.
    Lemma map_ok d : mapb d = true -> usable_map rx get_schema V m d.
    Proof.
      unfold mapb. intros E. ands. split.
      - destruct (fine_ok d H). split; [assumption|]. split; [assumption|]. intros x ->. assumption.
      - destruct (kw "$ref" m) as [r|].
        + destruct r; try discriminate. ands. split.
          * intros k I. rewrite forallb_forall in H1. specialize (H1 k I). destruct (kw k m); congruence.
          * destruct (get_schema s) as [s1| | | |]; try discriminate. eauto.
        + ands. split; [apply basic_ok; assumption|]. split; [apply numeric_ok; assumption|]. split; [apply string_ok; assumption|].
          split; [apply array_ok; assumption|]. split; [apply object_ok; assumption|apply comb_ok; assumption].
    Qed.
  End One.

  Fixpoint usableb (n : nat) (s d : value) : bool :=
    match n with O => false | S n => match s with VMap m => mapb (usableb n) m d | _ => true end end.
  Theorem usableb_ok n : forall s d, usableb n s d = true -> usable rx get_schema n s d.
  Proof.
    induction n as [|n IH]; intros s d E; [discriminate|]. destruct s; try exact I. cbn [usableb usable] in *. exact (map_ok _ _ _ IH d E).
  Qed.
End Check.
