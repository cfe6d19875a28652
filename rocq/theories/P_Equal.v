(** Property C18: equality of Variants. *)
From Verif Require Import Base Float Value Blob P_Blob Numeric NumericProofs NumberSpec P_Compare.
From Coq Require Import Reals SpecFloat.
From Flocq Require Import Core IEEE754.BinarySingleNaN.
Open Scope Z_scope.

(** ** Specification *)

(** Same structure and contents, numbers by value. *)
Inductive same : value -> value -> Prop :=
| same_null : same VNull VNull
| same_bool b : same (VBool b) (VBool b)
| same_num a b x : num_val a = Some x -> num_val b = Some x -> same a b
| same_str s : same (VStr s) (VStr s)
| same_list l r : Forall2 same l r -> same (VList l) (VList r)
| same_map m r : Forall2 (fun p q => fst p = fst q /\ same (snd p) (snd q)) m r -> same (VMap m) (VMap r)
| same_blob a b : List.concat a = List.concat b -> same (VBlob a) (VBlob b).

(** No NaN and no blob anywhere inside. *)
Inductive plain : value -> Prop :=
| plain_null : plain VNull
| plain_bool b : plain (VBool b)
| plain_num a x : num_val a = Some x -> plain a
| plain_str s : plain (VStr s)
| plain_list l : Forall plain l -> plain (VList l)
| plain_map m : Forall (fun p => plain (snd p)) m -> plain (VMap m).

(** What the code computes, in full: as [same], but NaN equals every number, and a blob
    equals every blob that it begins or that begins it. *)
Inductive alike : value -> value -> Prop :=
| alike_null : alike VNull VNull
| alike_bool b : alike (VBool b) (VBool b)
| alike_num a b x : num_val a = Some x -> num_val b = Some x -> alike a b
| alike_nan_l b : (exists x, num_val b = Some x) \/ b = VFlt S754_nan -> alike (VFlt S754_nan) b
| alike_nan_r a : (exists x, num_val a = Some x) -> alike a (VFlt S754_nan)
| alike_str s : alike (VStr s) (VStr s)
| alike_list l r : Forall2 alike l r -> alike (VList l) (VList r)
| alike_map m r : Forall2 (fun p q => fst p = fst q /\ alike (snd p) (snd q)) m r -> alike (VMap m) (VMap r)
| alike_blob a b : (exists t, List.concat a = List.concat b ++ t \/ List.concat b = List.concat a ++ t) ->
    alike (VBlob a) (VBlob b).

(** ** Proofs *)

Definition lgo := fix go (l r : list value) : res bool :=
  match l, r with
  | x :: l', y :: r' => do c <- vcompare x y; if c =? 0 then go l' r' else Ok false
  | _, _ => Ok true
  end.
Definition mgo := fix go (m r : list (bytes * value)) : res bool :=
  match m, r with
  | (k, x) :: m', (k', y) :: r' =>
      if beqb k k' then do c <- vcompare x y; if c =? 0 then go m' r' else Ok false else Ok false
  | _, _ => Ok true
  end.

Lemma vcompare_list l r : vcompare (VList l) (VList r) =
  if (List.length l =? List.length r)%nat then do same <- lgo l r; Ok (if (same : bool) then 0 else 1) else Ok 1.
Proof. reflexivity. Qed.
Lemma vcompare_map l r : vcompare (VMap l) (VMap r) =
  if (List.length l =? List.length r)%nat then do same <- mgo l r; Ok (if (same : bool) then 0 else 1) else Ok 1.
Proof. reflexivity. Qed.

(** [eqs a b]: the comparison gives a result, and it is 0 exactly when [Q] holds. *)
Definition decides (a b : value) (Q : Prop) : Prop := exists c, vcompare a b = Ok c /\ (c = 0 <-> Q).

Lemma lgo_spec (R : value -> value -> Prop) l : Forall (fun x => vok x -> forall y, vok y -> decides x y (R x y)) l ->
  Forall vok l -> forall r, Forall vok r -> List.length l = List.length r ->
  exists b, lgo l r = Ok b /\ (b = true <-> Forall2 R l r).
Proof.
  intros H V. induction H as [|x l Hx H IH]; intros r W L.
  - destruct r; [|discriminate]. exists true. split; [reflexivity|]. split; auto.
  - destruct r as [|y r]; [discriminate|]. inversion V as [|? ? V1 V2]; subst. inversion W as [|? ? W1 W2]; subst.
    cbn [List.length] in L. injection L as L.
    destruct (Hx V1 y W1) as (c & E & Q). cbn [lgo]. rewrite E. cbn [rbind].
    destruct (Z.eqb_spec c 0) as [->|N].
    + destruct (IH V2 r W2 L) as (b & Eb & Qb). exists b. split; [exact Eb|]. rewrite Qb. split.
      * intros F. constructor; [apply Q; reflexivity|exact F].
      * intros F. inversion F; auto.
    + exists false. split; [reflexivity|]. split; [discriminate|]. intros F. inversion F; subst. exfalso. tauto.
Qed.

Lemma mgo_spec (R : value -> value -> Prop) m :
  Forall (fun kv => vok (snd kv) -> forall y, vok y -> decides (snd kv) y (R (snd kv) y)) m ->
  Forall (fun kv => vok (snd kv)) m -> forall r, Forall (fun kv => vok (snd kv)) r -> List.length m = List.length r ->
  exists b, mgo m r = Ok b /\ (b = true <-> Forall2 (fun p q => fst p = fst q /\ R (snd p) (snd q)) m r).
Proof.
  intros H V. induction H as [|[k x] m Hx H IH]; intros r W L.
  - destruct r; [|discriminate]. exists true. split; [reflexivity|]. split; auto.
  - destruct r as [|[k' y] r]; [discriminate|]. inversion V as [|? ? V1 V2]; subst. inversion W as [|? ? W1 W2]; subst.
    cbn [List.length] in L. injection L as L. cbn [snd] in *. cbn [mgo].
    destruct (beqb k k') eqn:K.
    + apply beqb_eq in K. subst k'. destruct (Hx V1 y W1) as (c & E & Q). rewrite E. cbn [rbind].
      destruct (Z.eqb_spec c 0) as [->|N].
      * destruct (IH V2 r W2 L) as (b & Eb & Qb). exists b. split; [exact Eb|]. rewrite Qb. split.
        -- intros F. constructor; [split; [reflexivity|apply Q; reflexivity]|exact F].
        -- intros F. inversion F; auto.
      * exists false. split; [reflexivity|]. split; [discriminate|]. intros F. inversion F; subst. exfalso. cbn [snd] in *. tauto.
    + exists false. split; [reflexivity|]. split; [discriminate|]. intros F. inversion F as [|? ? ? ? [F1 _]]; subst.
      cbn [fst] in F1. subst k'. rewrite (proj2 (beqb_eq k k) eq_refl) in K. discriminate.
Qed.

Lemma decides_false a b (Q : Prop) : vcompare a b = Ok 1 -> ~ Q -> decides a b Q.
Proof. intros E N. exists 1. split; [exact E|]. split; [discriminate|tauto]. Qed.

Lemma Forall2_len {A B} (R : A -> B -> Prop) l r : Forall2 R l r -> List.length l = List.length r.
Proof. induction 1; cbn; congruence. Qed.

Lemma is_num_cases v : vok v -> is_num (type_of v) = true -> v = VFlt S754_nan \/ exists x, num_val v = Some x.
Proof.
  destruct v as [| |z|n|f| | | |]; try discriminate; intros V _; try (right; eexists; reflexivity).
  destruct f as [s|[|]| |s m e]; try (right; eexists; reflexivity). left. reflexivity.
Qed.

Lemma num_is_num v x : num_val v = Some x -> is_num (type_of v) = true.
Proof. destruct v; try discriminate; reflexivity. Qed.

Lemma alike_not_num a b : is_num (type_of a) = true -> is_num (type_of b) = false -> ~ alike a b.
Proof.
  intros Na Nb H. inversion H; subst; try discriminate.
  - rewrite (num_is_num b x) in Nb by assumption. discriminate.
  - destruct H0 as [[x H0]|H0]; [rewrite (num_is_num b x H0) in Nb; discriminate|subst; discriminate].
Qed.

Lemma num_compare_not a b : is_num (type_of a) = true -> is_num (type_of b) = false -> vcompare a b = Ok 1.
Proof. destruct a, b; try discriminate; reflexivity. Qed.

Lemma vcompare_num a b : is_num (type_of a) = true -> is_num (type_of b) = true -> vok a -> vok b ->
  decides a b (alike a b).
Proof.
  intros Na Nb Va Vb.
  destruct (is_num_cases a Va Na) as [->|[x Hx]].
  - exists 0. split.
    + destruct b; try discriminate; reflexivity.
    + split; [|reflexivity]. intros _. apply alike_nan_l.
      destruct (is_num_cases b Vb Nb) as [->|Hb]; auto.
  - destruct (is_num_cases b Vb Nb) as [->|[y Hy]].
    + exists 0. split.
      * destruct a as [| |z|n|f| | | |]; try discriminate; unfold vcompare, num_compare; cbn; unfold ld_order.
        all: try (destruct (ld_of_Z _); reflexivity). destruct f; reflexivity.
      * split; [|reflexivity]. intros _. apply alike_nan_r. eauto.
    + destruct (C10_compare_partial a b x y Va Vb Hx Hy) as (L & E & G).
      destruct (ext_trichotomy x y) as [T|[T|T]].
      * exists (-1). split; [auto|]. split; [discriminate|]. intros A. exfalso.
        assert (x = y) by (inversion A; subst; try discriminate; congruence). subst. eapply ext_lt_irrefl, T.
      * exists 0. split; [auto|]. split; [|reflexivity]. intros _. apply (alike_num a b x); congruence.
      * exists 1. split; [auto|]. split; [discriminate|]. intros A. exfalso.
        assert (x = y) by (inversion A; subst; try discriminate; congruence). subst. eapply ext_lt_irrefl, T.
Qed.

Ltac no_alike := let H := fresh in intros H; inversion H; subst; try discriminate;
  match goal with X : exists _, _ |- _ => destruct X; discriminate end.

Lemma vcompare_alike a : vok a -> forall b, vok b -> decides a b (alike a b).
Proof.
  assert (NUM : forall a, is_num (type_of a) = true -> vok a -> forall b, vok b -> decides a b (alike a b)).
  { intros v N V b W. destruct (is_num (type_of b)) eqn:Nb.
    - apply vcompare_num; auto.
    - apply decides_false; [apply num_compare_not; auto|apply alike_not_num; auto]. }
  induction a as [|x|z|n|f|s|l IH|m IH|x] using value_ind'; intros V b W;
    try (apply NUM; [reflexivity|exact V|exact W]).
  - destruct b as [| | | | | | | |]; try (apply decides_false; [reflexivity|no_alike]; fail).
    + exists 0. split; [reflexivity|]. split; [constructor|reflexivity].
  - destruct b as [|y| | | | | | |]; try (apply decides_false; [reflexivity|no_alike]; fail).
    + destruct (Bool.eqb x y) eqn:E.
      * apply eqb_prop in E. subst y. exists 0. cbn. rewrite Bool.eqb_reflx. split; [reflexivity|]. split; [constructor|reflexivity].
      * apply decides_false; [cbn; rewrite E; reflexivity|]. intros H. inversion H; subst; try discriminate.
        rewrite Bool.eqb_reflx in E. discriminate.
  - destruct b as [| | | | |t| | |]; try (apply decides_false; [reflexivity|no_alike]; fail).
    + exists (cmp_sign (bcmp s t)). split; [reflexivity|]. split.
      * intros C. assert (E : bcmp s t = Eq) by (destruct (bcmp s t); try discriminate; reflexivity).
        apply bcmp_eq in E. subst. constructor.
      * intros H. inversion H; subst; try discriminate. rewrite bcmp_refl. reflexivity.
  - destruct b as [| | | | | |r| |]; try (apply decides_false; [reflexivity|no_alike]; fail).
    + unfold decides. rewrite vcompare_list. apply vok_list in V. apply vok_list in W.
      destruct (Nat.eqb_spec (List.length l) (List.length r)) as [L|L].
      * destruct (lgo_spec alike l IH V r W L) as (b & -> & Q). cbn [rbind]. exists (if b then 0 else 1).
        split; [reflexivity|]. destruct b.
        -- split; [|reflexivity]. intros _. apply alike_list, Q. reflexivity.
        -- split; [discriminate|]. intros H. inversion H; subst; try discriminate. apply Q in H2. discriminate.
      * exists 1. split; [reflexivity|]. split; [discriminate|]. intros H. inversion H; subst; try discriminate.
        apply Forall2_len in H2. contradiction.
  - destruct b as [| | | | | | |r|]; try (apply decides_false; [reflexivity|no_alike]; fail).
    + unfold decides. rewrite vcompare_map. apply vok_map in V. apply vok_map in W. destruct V as [_ V], W as [_ W].
      destruct (Nat.eqb_spec (List.length m) (List.length r)) as [L|L].
      * destruct (mgo_spec alike m IH V r W L) as (b & -> & Q). cbn [rbind]. exists (if b then 0 else 1).
        split; [reflexivity|]. destruct b.
        -- split; [|reflexivity]. intros _. apply alike_map, Q. reflexivity.
        -- split; [discriminate|]. intros H. inversion H; subst; try discriminate. apply Q in H2. discriminate.
      * exists 1. split; [reflexivity|]. split; [discriminate|]. intros H. inversion H; subst; try discriminate.
        apply Forall2_len in H2. contradiction.
  - destruct b as [| | | | | | | |y]; try (apply decides_false; [reflexivity|no_alike]; fail).
    + unfold decides. cbn [vcompare]. rewrite blob_compare_memcmp. eexists. split; [reflexivity|].
      rewrite memcmp_zero. split.
      * intros [[t H]|[t H]]; apply alike_blob; exists t; auto.
      * intros H. inversion H as [| | | | | | | |? ? [t [T|T]]]; subst; try discriminate; [right|left]; exists t; exact T.
Qed.

(** [==] always gives an answer, and it is exactly [alike]. *)
Theorem C18_equal_full a b : vok a -> vok b ->
  exists r, v_eq a b = Ok r /\ (r = true <-> alike a b).
Proof.
  intros V W. destruct (vcompare_alike a V b W) as (c & E & Q). unfold v_eq. rewrite E. cbn [rbind].
  exists (c =? 0). split; [reflexivity|]. rewrite Z.eqb_eq. exact Q.
Qed.
Print Assumptions C18_equal_full.

Lemma F2_imp {A} (P : A -> Prop) (R S : A -> A -> Prop) l r :
  Forall (fun x => forall y, P y -> R x y -> S x y) l -> Forall P r -> Forall2 R l r -> Forall2 S l r.
Proof.
  intros HH QQ F. revert HH QQ. induction F; intros HH QQ; inversion HH; inversion QQ; subst; constructor; auto.
Qed.

Lemma F2_flip {A} (R S : A -> A -> Prop) l r :
  Forall (fun x => forall y, R x y -> S y x) l -> Forall2 R l r -> Forall2 S r l.
Proof. intros HH F. revert HH. induction F; intros HH; inversion HH; subst; constructor; auto. Qed.

Lemma F2_trans {A} (R S T : A -> A -> Prop) l :
  Forall (fun x => forall y z, R x y -> S y z -> T x z) l -> forall r q, Forall2 R l r -> Forall2 S r q -> Forall2 T l q.
Proof.
  intros H. induction H; intros r q F G; inversion F; subst; inversion G; subst; constructor; eauto.
Qed.

Lemma F_imp2 {A} (P Q : A -> Prop) l : Forall (fun x => P x -> Q x) l -> Forall P l -> Forall Q l.
Proof. induction 1; intros K; inversion K; subst; constructor; auto. Qed.

Lemma F_True {A} (l : list A) : Forall (fun _ => True) l.
Proof. induction l; constructor; auto. Qed.

Lemma F_weaken {A} (P Q : A -> Prop) l : (forall x, P x -> Q x) -> Forall P l -> Forall Q l.
Proof. intros I. induction 1; constructor; auto. Qed.

Lemma same_alike a : forall b, same a b -> alike a b.
Proof.
  induction a as [|x|z|n|f|s|l IH|m IH|x] using value_ind'; intros b H; inversion H; subst;
    try (eapply alike_num; eassumption); try constructor; try discriminate.
  - eapply (F2_imp (fun _ => True)); [|apply F_True|eassumption]. eapply F_weaken; [|exact IH]. cbn. auto.
  - eapply (F2_imp (fun _ => True)); [|apply F_True|eassumption]. eapply F_weaken; [|exact IH]. cbn. intros ? ? ? ? []; auto.
  - exists []. left. rewrite app_nil_r. assumption.
Qed.

Lemma plain_not_nan v : plain v -> v <> VFlt S754_nan.
Proof. intros P ->. inversion P; discriminate. Qed.

Lemma plain_list_inv l : plain (VList l) -> Forall plain l.
Proof. intros P. inversion P; subst; [discriminate|assumption]. Qed.
Lemma plain_map_inv m : plain (VMap m) -> Forall (fun p => plain (snd p)) m.
Proof. intros P. inversion P; subst; [discriminate|assumption]. Qed.

Lemma alike_same a : plain a -> forall b, plain b -> alike a b -> same a b.
Proof.
  induction a as [|x|z|n|f|s|l IH|m IH|x] using value_ind'; intros P b Q H; inversion H; subst;
    try (eapply same_num; eassumption); try (exfalso; exact (plain_not_nan _ P eq_refl)); try (exfalso; exact (plain_not_nan _ Q eq_refl)); try constructor; try discriminate.
  - apply plain_list_inv in P as P'. apply plain_list_inv in Q as Q'.
    eapply (F2_imp plain); [|exact Q'|eassumption]. eapply F_imp2; [|exact P']. exact IH.
  - apply plain_map_inv in P as P'. apply plain_map_inv in Q as Q'.
    eapply (F2_imp (fun p => plain (snd p))); [|exact Q'|eassumption]. eapply F_imp2; [|exact P'].
    eapply F_weaken; [|exact IH]. cbn. intros ? ? ? ? ? []; auto.
  - inversion P; discriminate.
Qed.

(** On values without NaN and blobs, [==] is structural equality. *)
Theorem C18_equal_partial a b : vok a -> vok b -> plain a -> plain b ->
  exists r, v_eq a b = Ok r /\ (r = true <-> same a b).
Proof.
  intros V W P Q. destruct (C18_equal_full a b V W) as (r & E & H). exists r. split; [exact E|].
  rewrite H. split; [apply alike_same; auto|apply same_alike].
Qed.
Print Assumptions C18_equal_partial.

Lemma same_sym a : forall b, same a b -> same b a.
Proof.
  induction a as [|x|z|n|f|s|l IH|m IH|x] using value_ind'; intros b H; inversion H; subst;
    try (eapply same_num; eassumption); try constructor; try discriminate; auto.
  - eapply F2_flip; [exact IH|eassumption].
  - eapply F2_flip; [|eassumption]. eapply F_weaken; [|exact IH]. cbn. intros ? ? ? []; auto.
Qed.

Lemma same_trans a : forall b c, same a b -> same b c -> same a c.
Proof.
  induction a as [|x|z|n|f|s|l IH|m IH|x] using value_ind'; intros b c H K; inversion H; subst; inversion K; subst;
    try discriminate;
    try (match goal with A : num_val ?v = Some ?x, B : num_val ?v = Some ?y |- _ =>
           assert (x = y) by congruence; subst; eapply same_num; eassumption end).
  all: try constructor; try congruence.
  - eapply F2_trans; [exact IH|eassumption|eassumption].
  - eapply F2_trans; [|eassumption|eassumption]. eapply F_weaken; [|exact IH].
    cbn. intros ? ? ? ? [] []; split; [congruence|eauto].
Qed.

Lemma same_refl a : plain a -> same a a.
Proof.
  induction a as [|x|z|n|f|s|l IH|m IH|x] using value_ind'; intros P; try constructor;
    try (eapply same_num; reflexivity).
  - inversion P; subst. eapply same_num; eassumption.
  - apply plain_list_inv in P as Q. clear P. induction IH; inversion Q; subst; constructor; auto.
  - apply plain_map_inv in P as Q. clear P. induction IH; inversion Q; subst; constructor; auto.
  - reflexivity.
Qed.

(** ... and so it is an equivalence on them. *)
Theorem C18_equivalence_partial a b c : vok a -> vok b -> vok c -> plain a -> plain b -> plain c ->
  v_eq a a = Ok true /\ v_eq a b = v_eq b a /\
  (v_eq a b = Ok true -> v_eq b c = Ok true -> v_eq a c = Ok true).
Proof.
  intros Va Vb Vc Pa Pb Pc.
  destruct (C18_equal_partial a a Va Va Pa Pa) as (r & -> & Hr).
  destruct (C18_equal_partial a b Va Vb Pa Pb) as (r1 & -> & H1).
  destruct (C18_equal_partial b a Vb Va Pb Pa) as (r2 & -> & H2).
  destruct (C18_equal_partial b c Vb Vc Pb Pc) as (r3 & -> & H3).
  destruct (C18_equal_partial a c Va Vc Pa Pc) as (r4 & -> & H4).
  split; [f_equal; apply Hr, same_refl, Pa|]. split.
  - f_equal. assert (S : same a b <-> same b a) by (split; apply same_sym).
    destruct r1, r2; try reflexivity; exfalso.
    + assert (false = true) by tauto. discriminate.
    + assert (false = true) by tauto. discriminate.
  - intros [= ->] [= ->]. f_equal. apply H4. eapply same_trans; [apply H1|apply H3]; reflexivity.
Qed.
Print Assumptions C18_equivalence_partial.

(** Reflexivity and symmetry hold with no restriction. *)
Lemma alike_refl a : vok a -> alike a a.
Proof.
  induction a as [|x|z|n|f|s|l IH|m IH|x] using value_ind'; intros V; try constructor;
    try (eapply alike_num; reflexivity).
  - destruct (is_num_cases (VFlt f) V eq_refl) as [E|[x E]]; [rewrite E; apply alike_nan_l; auto|eapply alike_num; eauto].
  - apply vok_list in V. induction IH; inversion V; subst; constructor; auto.
  - apply vok_map in V. destruct V as [_ V]. induction IH; inversion V; subst; constructor; auto.
  - exists []. left. rewrite app_nil_r. reflexivity.
Qed.

Lemma alike_sym a : forall b, alike a b -> alike b a.
Proof.
  induction a as [|x|z|n|f|s|l IH|m IH|x] using value_ind'; intros b H; inversion H; subst;
    try (eapply alike_num; eassumption); try (apply alike_nan_l; auto; fail);
    try (match goal with X : _ \/ _ |- _ => destruct X; [apply alike_nan_r; assumption|subst; apply alike_nan_l; auto] end; fail);
    try constructor; try discriminate; auto.
  - eapply F2_flip; [exact IH|eassumption].
  - eapply F2_flip; [|eassumption]. eapply F_weaken; [|exact IH]. cbn. intros ? ? ? []; auto.
  - match goal with X : exists _, _ |- _ => destruct X as [t [T|T]]; exists t; auto end.
Qed.

Theorem C18_reflexive_symmetric a b : vok a -> vok b -> v_eq a a = Ok true /\ v_eq a b = v_eq b a.
Proof.
  intros Va Vb.
  destruct (C18_equal_full a a Va Va) as (r & -> & Hr).
  destruct (C18_equal_full a b Va Vb) as (r1 & -> & H1).
  destruct (C18_equal_full b a Vb Va) as (r2 & -> & H2).
  split; [f_equal; apply Hr, alike_refl, Va|].
  f_equal. assert (S : alike a b <-> alike b a) by (split; apply alike_sym).
  destruct r1, r2; try reflexivity; exfalso; assert (false = true) by tauto; discriminate.
Qed.
Print Assumptions C18_reflexive_symmetric.

Ltac plain_tac := repeat first [apply plain_list | apply plain_map | apply Forall_nil | apply Forall_cons
  | apply plain_str | eapply plain_num; reflexivity | progress cbn [snd]].

(** With NaN or blobs the statement is false: equal values with different contents, and
    no transitivity. *)
Theorem C18_equality_refuted :
  (exists a b c, vok a /\ vok b /\ vok c /\ v_eq a b = Ok true /\ v_eq b c = Ok true /\ v_eq a c = Ok false) /\
  (exists a b c, plain a /\ plain c /\ vok a /\ vok b /\ vok c /\
     v_eq a b = Ok true /\ v_eq b c = Ok true /\ v_eq a c = Ok false) /\
  (exists a b, vok a /\ vok b /\ v_eq a b = Ok true /\ ~ same a b).
Proof.
  split; [|split].
  - exists (VList [VBlob [s2b "ab"]]), (VList [VBlob [s2b "a"]]), (VList [VBlob [s2b "ac"]]).
    repeat split; vm_compute; reflexivity.
  - exists (VList [VInt 1]), (VList [VFlt S754_nan]), (VList [VInt 2]).
    split; [plain_tac|]. split; [plain_tac|]. repeat split; try (cbn; lia); vm_compute; reflexivity.
  - exists (VBlob [s2b "ab"]), (VBlob [s2b "abc"]). split; [exact I|]. split; [exact I|].
    split; [vm_compute; reflexivity|].
    intros H. inversion H; subst; discriminate.
Qed.
Print Assumptions C18_equality_refuted.

(** Two maps built differently, equal by value: 2 as signed, unsigned and float. *)
Example C18_example :
  let a := VMap [(s2b "k", VList [VInt 2; VStr (s2b "x")])] in
  let b := VMap [(s2b "k", VList [VFlt (S754_finite false (2^63) (-62)); VStr (s2b "x")])] in
  let c := VMap [(s2b "k", VList [VUns 2; VStr (s2b "y")])] in
  vok a /\ vok b /\ plain a /\ plain b /\ v_eq a b = Ok true /\ v_eq a c = Ok false.
Proof.
  cbv zeta. split; [cbn; repeat split; try lia; intros ? []|]. split; [cbn; repeat split; try reflexivity; intros ? []|].
  split; [plain_tac|]. split; [plain_tac|]. split; vm_compute; reflexivity.
Qed.
