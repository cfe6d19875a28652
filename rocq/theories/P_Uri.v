(** C43: resolving schema URIs. *)
From Verif Require Import Base CNum Uri.
Open Scope N_scope.

Definition slash : ascii := "/".
Definition slashless (s : bytes) : Prop := ~ In slash s.
Definition dot1 (s : bytes) : Prop := s = s2b ".".
Definition dot2 (s : bytes) : Prop := s = s2b "..".
Definition ordinary (s : bytes) : Prop := ~ dot1 s /\ ~ dot2 s.

(** ** RFC 3986, section 5.2.4, as written there: [rds input output result]. *)

(** "removing the last segment and its preceding slash (if any) from the output buffer". *)
Inductive drop_last : bytes -> bytes -> Prop :=
| dl_slash o s : slashless s -> drop_last (o ++ slash :: s) o
| dl_all o : slashless o -> drop_last o [].

(** The rest of a path after a segment: nothing, or a slash and more. *)
Definition at_slash (s : bytes) : Prop := s = [] \/ exists t, s = slash :: t.

Inductive rds : bytes -> bytes -> bytes -> Prop :=
| rds_end o : rds [] o o
| rds_A1 i o r : rds i o r -> rds (s2b "../" ++ i) o r
| rds_A2 i o r : rds i o r -> rds (s2b "./" ++ i) o r
| rds_B1 i o r : rds (s2b "/" ++ i) o r -> rds (s2b "/./" ++ i) o r
| rds_B2 o r : rds (s2b "/") o r -> rds (s2b "/.") o r
| rds_C1 i o o' r : drop_last o o' -> rds (s2b "/" ++ i) o' r -> rds (s2b "/../" ++ i) o r
| rds_C2 o o' r : drop_last o o' -> rds (s2b "/") o' r -> rds (s2b "/..") o r
| rds_D1 o r : rds [] o r -> rds (s2b ".") o r
| rds_D2 o r : rds [] o r -> rds (s2b "..") o r
| rds_E1 s t o r : slashless s -> ordinary s -> at_slash t ->
    rds t (o ++ slash :: s) r -> rds (slash :: s ++ t) o r
| rds_E2 s t o r : s <> [] -> slashless s -> ordinary s -> at_slash t ->
    rds t (o ++ s) r -> rds (s ++ t) o r.

(** ** Segments *)

(** The text of the segments, a slash before each. *)
Fixpoint slashed (segs : list bytes) : bytes :=
  match segs with [] => [] | s :: t => slash :: s ++ slashed t end.

(** Reading the segments from the left, the double dots never outnumber the ordinary
    segments before them: the path does not climb above its root. *)
Definition grounded (segs : list bytes) : Prop :=
  forall a b, segs = a ++ b ->
    (List.length (filter (fun s => beqb s (s2b "..")) a)
     <= List.length (filter (fun s => negb (beqb s (s2b ".")) && negb (beqb s (s2b ".."))) a))%nat.

Lemma slashless_aeqb s : slashless s <-> forallb (fun c => negb (aeqb c slash)) s = true.
Proof.
  unfold slashless. induction s as [|c s IH]; cbn; [tauto|]. rewrite andb_true_iff, <- IH.
  rewrite negb_true_iff, aeqb_neq. split; [intros H; split; [intros ->; auto|tauto]|intros [A B] [C|C]; [congruence|tauto]].
Qed.

Lemma split_slash_ne p : split_slash p <> [].
Proof. destruct p as [|c p]; cbn; [discriminate|]. destruct (aeqb c "/"); [discriminate|]. destruct (split_slash p); discriminate. Qed.

Lemma split_slash_app s t : slashless s -> at_slash t ->
  split_slash (s ++ t) = s :: match t with [] => [] | _ :: t' => split_slash t' end.
Proof.
  induction s as [|c s IH]; intros A B; cbn.
  - destruct B as [->|[t' ->]]; reflexivity.
  - assert (aeqb c "/" = false) as -> by (apply aeqb_neq; intros ->; apply A; left; reflexivity).
    rewrite IH; [reflexivity| |exact B]. intros I. apply A. right. exact I.
Qed.

Lemma at_slashed l : at_slash (slashed l).
Proof. destruct l; [left; reflexivity|right; eexists; reflexivity]. Qed.

Lemma split_slashed x l : slashless x -> Forall slashless l -> split_slash (x ++ slashed l) = x :: l.
Proof.
  intros A F. revert x A. induction F as [|y l Y F IH]; intros x A.
  - rewrite split_slash_app by (auto; apply at_slashed). reflexivity.
  - rewrite split_slash_app by (auto; apply at_slashed). cbn [slashed]. f_equal. apply IH. exact Y.
Qed.

Lemma split_slash_inv p : exists x l, split_slash p = x :: l /\ p = x ++ slashed l /\ slashless x /\ Forall slashless l.
Proof.
  induction p as [|c p IH]; cbn.
  - exists [], []. repeat split; auto. intros [].
  - destruct IH as (x & l & -> & E & A & F). destruct (aeqb c "/") eqn:C.
    + apply aeqb_eq in C as ->. exists [], (x :: l). cbn. rewrite E. repeat split; auto. intros [].
    + exists (c :: x), l. rewrite E. repeat split; auto. apply aeqb_neq in C. intros [I|I]; [unfold slash in I; congruence|auto].
Qed.

Lemma write_segs_true l : write_segs true l = slashed l.
Proof. induction l as [|s l IH]; cbn; [reflexivity|]. rewrite IH. reflexivity. Qed.

Lemma slashed_app a b : slashed (a ++ b) = slashed a ++ slashed b.
Proof. induction a as [|s a IH]; cbn; [reflexivity|]. rewrite IH, app_assoc. reflexivity. Qed.

Definition clean (l : list bytes) : Prop := Forall ordinary l.

Lemma ordinary_b s : ordinary s <-> beqb s (s2b ".") = false /\ beqb s (s2b "..") = false.
Proof. unfold ordinary, dot1, dot2. rewrite !beqb_neq. tauto. Qed.

Lemma dots_clean l : clean l -> forall out last, dots_loop l out last = (out ++ l, last).
Proof.
  induction 1 as [|s l O F IH]; intros out last; cbn [dots_loop]; [rewrite app_nil_r; reflexivity|].
  apply ordinary_b in O as [-> ->]. rewrite IH, <- app_assoc. reflexivity.
Qed.

(** The tail written after the segments. *)
Definition tail_of (first : bool) (out : list bytes) (last : nat) : bytes :=
  (match out with [] => if first then s2b "/" else [] | _ => [] end)
  ++ (if (Nat.ltb 0 last && Nat.eqb last (List.length out))%bool then s2b "/" else []).

Lemma tail_none first out last : out <> [] -> (last < List.length out)%nat -> tail_of first out last = [].
Proof.
  intros N L. unfold tail_of. destruct out as [|x out]; [congruence|]. cbn [app].
  assert (Nat.eqb last (List.length (x :: out)) = false) as -> by (apply Nat.eqb_neq; lia). rewrite andb_false_r. reflexivity.
Qed.

Lemma tail_dot out : tail_of true out (List.length out) = s2b "/".
Proof. destruct out; cbn; [reflexivity|]. rewrite Nat.eqb_refl. reflexivity. Qed.

Lemma len_removelast {A} (l : list A) x : removelast (l ++ [x]) = l.
Proof. apply removelast_last. Qed.

(** Following RFC 3986 from a state of the loop. *)
Lemma loop_rds segs : Forall slashless segs -> segs <> [] -> forall out last,
  Forall slashless out -> (last <= List.length out)%nat ->
  (forall a b, segs = a ++ b ->
    (List.length (filter (fun s => beqb s (s2b "..")) a)
     <= List.length out + List.length (filter (fun s => negb (beqb s (s2b ".")) && negb (beqb s (s2b ".."))) a))%nat) ->
  let '(out', last') := dots_loop segs out last in
  rds (slashed segs) (slashed out) (slashed out' ++ tail_of true out' last').
Proof.
  assert (SL : rds (s2b "/") = rds (slash :: [] ++ [])) by reflexivity.
  assert (O0 : ordinary []) by (split; discriminate).
  assert (S0 : slashless []) by (intros []).
  assert (FIN : forall o, rds (s2b "/") o (o ++ s2b "/")).
  { intros o. rewrite SL. apply rds_E1; auto; [left; reflexivity|]. apply rds_end. }
  induction 1 as [|s segs Hs F IH]; intros NE out last FO LE G; [congruence|]. cbn [dots_loop slashed].
  destruct (beqb s (s2b ".")) eqn:D1; [|destruct (beqb s (s2b "..")) eqn:D2].
  - apply beqb_eq in D1 as ->. destruct segs as [|s' segs'].
    + cbn [dots_loop slashed]. rewrite tail_dot. apply (rds_B2 (slashed out)). apply FIN.
    + specialize (IH ltac:(discriminate) out (List.length out) FO ltac:(lia)).
      destruct (dots_loop (s' :: segs') out (List.length out)) as [out' last'].
      apply (rds_B1 (s' ++ slashed segs')). apply IH.
      intros a b E. specialize (G (s2b "." :: a) b). cbn [app filter] in G. rewrite E in G. specialize (G eq_refl). cbn in G. exact G.
  - apply beqb_eq in D2 as ->.
    assert (OUT : exists o x, out = o ++ [x]).
    { destruct out as [|x0 out]; [|exists (removelast (x0 :: out)), (List.last (x0 :: out) []); apply app_removelast_last; discriminate].
      specialize (G [s2b ".."] segs eq_refl). cbn in G. lia. }
    destruct OUT as (o & x & ->). rewrite removelast_last.
    assert (match o ++ [x] with [] => [s2b ".."] | _ :: _ => o end = o) as -> by (destruct o; reflexivity).
    apply Forall_app in FO as [FO FX]. inversion FX as [|? ? Hx ?]; subst.
    assert (DL : drop_last (slashed (o ++ [x])) (slashed o)).
    { rewrite slashed_app. cbn [slashed]. rewrite app_nil_r. apply dl_slash. exact Hx. }
    destruct segs as [|s' segs'].
    + cbn [dots_loop slashed]. rewrite tail_dot. apply (rds_C2 _ _ _ DL). apply FIN.
    + specialize (IH ltac:(discriminate) o (List.length o) FO ltac:(lia)).
      destruct (dots_loop (s' :: segs') o (List.length o)) as [out' last'].
      apply (rds_C1 (s' ++ slashed segs') _ _ _ DL). apply IH.
      intros a b E. specialize (G (s2b ".." :: a) b). cbn [app filter] in G. rewrite E in G. specialize (G eq_refl).
      rewrite app_length in G. cbn in G. cbn. lia.
  - assert (O : ordinary s) by (apply ordinary_b; auto).
    destruct segs as [|s' segs'].
    + cbn [dots_loop slashed]. rewrite app_nil_r, tail_none; [|destruct out; discriminate|rewrite app_length; cbn; lia].
      rewrite app_nil_r, slashed_app. cbn [slashed]. rewrite app_nil_r.
      replace (slash :: s) with (slash :: s ++ []) at 1 by (rewrite app_nil_r; reflexivity).
      apply rds_E1; auto; [left; reflexivity|apply rds_end].
    + specialize (IH ltac:(discriminate) (out ++ [s]) last).
      destruct (dots_loop (s' :: segs') (out ++ [s]) last) as [out' last'].
      apply rds_E1; auto; [apply at_slashed|].
      replace (slashed out ++ slash :: s) with (slashed (out ++ [s])) by (rewrite slashed_app; cbn [slashed]; rewrite app_nil_r; reflexivity).
      apply IH.
      * apply Forall_app; auto.
      * rewrite app_length. cbn. lia.
      * intros a b E. specialize (G (s :: a) b). cbn [app filter] in G. rewrite E, D1, D2 in G. specialize (G eq_refl).
        rewrite app_length. cbn in G. cbn. lia.
Qed.

(** ** Theorem: on a rooted path that does not climb above its root, dot segments are
    removed exactly as RFC 3986 prescribes. *)
Theorem C43_dots_rfc_partial : forall segs, segs <> [] -> Forall slashless segs -> grounded segs ->
  rds (slashed segs) [] (remove_dots (slashed segs)).
Proof.
  intros segs N F G. unfold remove_dots.
  pose proof (split_slashed [] segs (fun H => H) F) as E0. cbn [app] in E0. rewrite E0. destruct segs as [|s segs]; [congruence|].
  change (beqb [] []) with true. change (beqb [] (s2b "..")) with false. cbn match.
  pose proof (loop_rds (s :: segs) F N [] 0%nat (Forall_nil _) (Nat.le_refl _)) as L.
  destruct (dots_loop (s :: segs) [] 0) as [out last] eqn:E. rewrite write_segs_true. apply L.
  intros a b Eab. specialize (G a b Eab). cbn. exact G.
Qed.
Print Assumptions C43_dots_rfc_partial.

(** A path that satisfies the hypotheses, with every kind of segment. *)
Example dots_demo : exists segs, segs <> [] /\ Forall slashless segs /\ grounded segs /\
  slashed segs = s2b "/a/b/./../../c//d/.." /\ remove_dots (s2b "/a/b/./../../c//d/..") = s2b "/c//".
Proof.
  exists [s2b "a"; s2b "b"; s2b "."; s2b ".."; s2b ".."; s2b "c"; s2b ""; s2b "d"; s2b ".."].
  split; [discriminate|]. split; [|split; [|split; vm_compute; reflexivity]].
  - repeat constructor; cbn; intros H; repeat (destruct H as [H|H]; try discriminate H); destruct H.
  - intros a b E. pose proof (f_equal (firstn (List.length a)) E) as Q.
    rewrite firstn_app, Nat.sub_diag, firstn_all, app_nil_r in Q. rewrite <- Q.
    generalize (List.length a). intros n. do 9 (destruct n as [|n]; [cbn; lia|]). cbn [firstn]. rewrite firstn_nil. cbn. lia.
Qed.

(** Above the root the code keeps one double dot, where RFC 3986 drops it. *)
Theorem C43_dots_root_refuted : exists p, rds p [] (s2b "/a") /\ remove_dots p = s2b "/../a".
Proof.
  exists (s2b "/../a"). split; [|vm_compute; reflexivity].
  apply (rds_C1 (s2b "a") [] [] _ (dl_all [] (fun H => H))).
  apply (rds_E1 (s2b "a") [] []); [intros [H|[]]; discriminate H|split; discriminate|left; reflexivity|]. apply rds_end.
Qed.
Print Assumptions C43_dots_root_refuted.

(** ** Removing dot segments twice is removing them once *)

Definition tidy (out : list bytes) (last : nat) : Prop :=
  Forall slashless out /\ (last <= List.length out)%nat /\
  (clean out \/ exists r, out = s2b ".." :: r /\ clean r /\ (1 <= last)%nat).

Lemma tidy_removelast out last : tidy out last -> tidy (removelast out) (List.length (removelast out)).
Proof.
  intros (F & L & C).
  assert (P : forall (P : bytes -> Prop) l, Forall P l -> Forall P (removelast l)).
  { intros Q l A. induction A as [|x l X A IH]; cbn; [constructor|]. destruct l; [constructor|constructor; auto]. }
  split; [apply P; exact F|]. split; [lia|].
  destruct C as [C|(r & -> & C & _)]; [left; apply P; exact C|].
  destruct r as [|x r]; [left; constructor|]. right. exists (removelast (x :: r)).
  split; [reflexivity|]. split; [apply P; exact C|]. cbn. lia.
Qed.

Lemma loop_tidy segs : Forall slashless segs -> forall out last, tidy out last ->
  let '(out', last') := dots_loop segs out last in tidy out' last'.
Proof.
  induction 1 as [|s segs Hs F IH]; intros out last T; cbn [dots_loop]; [exact T|].
  destruct (beqb s (s2b ".")) eqn:D1; [|destruct (beqb s (s2b "..")) eqn:D2].
  - apply IH. destruct T as (A & L & [C|(r & -> & C & L1)]); (split; [exact A|]); (split; [lia|]); [left; exact C|].
    right. exists r. cbn. repeat split; auto. lia.
  - apply beqb_eq in D2 as ->. apply IH. destruct out as [|x out].
    + split; [auto|]. cbn. split; [lia|]. right. exists []. repeat split; auto. constructor.
    + apply (tidy_removelast _ _ T).
  - apply IH. assert (O : ordinary s) by (apply ordinary_b; auto).
    destruct T as (A & L & C). split; [apply Forall_app; auto|]. rewrite app_length. cbn. split; [lia|].
    destruct C as [C|(r & -> & C & L1)]; [left; apply Forall_app; auto|].
    right. exists (r ++ [s]). split; [reflexivity|]. split; [apply Forall_app; auto|exact L1].
Qed.

Lemma remove_dots_eq x l : slashless x -> Forall slashless l -> l <> [] ->
  remove_dots (x ++ slashed l) =
  let '(out, last) := dots_loop l (if beqb x [] then [] else if beqb x (s2b ".") then [] else [x]) (if beqb x (s2b "..") then 1%nat else 0%nat) in
  write_segs (beqb x []) out ++ tail_of (beqb x []) out last.
Proof. intros A F N. unfold remove_dots. rewrite split_slashed by auto. destruct l as [|y l]; [congruence|]. reflexivity. Qed.

Lemma stable_rooted segs : Forall slashless segs -> segs <> [] ->
  clean segs \/ (exists r, segs = s2b ".." :: r /\ clean r /\ r <> []) ->
  remove_dots (slashed segs) = slashed segs.
Proof.
  intros F N C. pose proof (remove_dots_eq [] segs (fun H => H) F N) as E. cbn [app] in E. rewrite E. clear E.
  change (beqb [] []) with true. change (beqb [] (s2b "..")) with false. cbn match.
  destruct C as [C|(r & -> & C & NR)].
  - rewrite dots_clean by exact C. cbn [app]. rewrite write_segs_true, tail_none; [apply app_nil_r|exact N|]. destruct segs; [congruence|cbn; lia].
  - change (dots_loop (s2b ".." :: r) [] 0) with (dots_loop r [s2b ".."] 1).
    rewrite dots_clean by exact C. rewrite write_segs_true, tail_none; [apply app_nil_r|discriminate|]. destruct r; [congruence|cbn; lia].
Qed.

Lemma stable_relative x l : slashless x -> x <> [] -> x <> s2b "." -> Forall slashless l -> clean l ->
  remove_dots (x ++ slashed l) = x ++ slashed l.
Proof.
  intros A N D F C. destruct l as [|y l].
  - cbn [slashed]. unfold remove_dots. rewrite split_slash_app by (auto; left; reflexivity). cbv beta iota.
    apply beqb_neq in D. rewrite D, app_nil_r. reflexivity.
  - rewrite remove_dots_eq by (auto; discriminate).
    apply beqb_neq in N. apply beqb_neq in D. rewrite N, D, dots_clean by exact C.
    cbn [app write_segs]. rewrite write_segs_true.
    rewrite tail_none; [rewrite app_nil_r; reflexivity|discriminate|]. destruct (beqb x (s2b "..")); cbn [List.length]; lia.
Qed.

(** What is left: nothing, a rooted path, or a relative one. *)
Lemma remove_dots_form p :
  remove_dots p = [] \/
  (exists segs, remove_dots p = slashed segs /\ Forall slashless segs /\ segs <> [] /\
     (clean segs \/ exists r, segs = s2b ".." :: r /\ clean r /\ r <> [])) \/
  (exists x l, remove_dots p = x ++ slashed l /\ slashless x /\ x <> [] /\ x <> s2b "." /\ Forall slashless l /\ clean l).
Proof.
  destruct (split_slash_inv p) as (x & l & E & -> & A & F).
  destruct l as [|y l].
  - cbn [slashed]. rewrite app_nil_r. cbn [slashed] in E. rewrite app_nil_r in E.
    assert (R : remove_dots x = if beqb x (s2b ".") then [] else x) by (unfold remove_dots; rewrite E; reflexivity).
    rewrite R. destruct (beqb x (s2b ".")) eqn:D; [left; reflexivity|]. apply beqb_neq in D.
    destruct x as [|c x]; [left; reflexivity|]. right. right. exists (c :: x), []. cbn [slashed]. rewrite app_nil_r.
    repeat split; auto; [discriminate|constructor].
  - rewrite (remove_dots_eq x (y :: l)) by (auto; discriminate).
    remember (if beqb x [] then [] else if beqb x (s2b ".") then [] else [x]) as o0 eqn:EO.
    remember (if beqb x (s2b "..") then 1%nat else 0%nat) as l0 eqn:EL.
    assert (T0 : tidy o0 l0).
    { subst. destruct (beqb x []) eqn:B0; [apply beqb_eq in B0 as ->; split; [auto|]; split; [cbn; lia|left; constructor]|].
      destruct (beqb x (s2b ".")) eqn:B1; [apply beqb_eq in B1 as ->; split; [auto|]; split; [cbn; lia|left; constructor]|].
      split; [auto|]. cbn [List.length]. destruct (beqb x (s2b "..")) eqn:B2; (split; [lia|]).
      - apply beqb_eq in B2 as ->. right. exists []. repeat split; auto. constructor.
      - left. repeat constructor; intros Q; [apply beqb_neq in B1|apply beqb_neq in B2]; auto. }
    clear EO EL E. pose proof (loop_tidy (y :: l) F o0 l0 T0) as T. destruct (dots_loop (y :: l) o0 l0) as [out last].
    destruct T as (FO & L & C).
    assert (TAIL : out = [] /\ last = 0%nat \/ (out <> [] /\ exists e, (e = [] \/ e = [[]]) /\ forall f, tail_of f out last = slashed e /\ (e = [] -> forall r, out = s2b ".." :: r -> r <> []))).
    { destruct out as [|z out]; [left; cbn in L; split; [reflexivity|lia]|right]. split; [discriminate|].
      destruct (Nat.ltb 0 last && Nat.eqb last (List.length (z :: out)))%bool eqn:Q.
      - exists [[]]. split; [auto|]. intros f. unfold tail_of. rewrite Q. split; [reflexivity|discriminate].
      - exists []. split; [auto|]. intros f. unfold tail_of. rewrite Q. split; [reflexivity|].
        intros _ r Er ->. injection Er as -> ->. destruct C as [C|(r & Er & _ & L1)]; [inversion C as [|? ? O]; subst; destruct O as [_ O]; apply O; reflexivity|].
        cbn in L. assert (last = 1%nat) by lia. subst last. discriminate Q. }
    destruct TAIL as [[-> ->]|(NO & e & HE & HT)]; [destruct (beqb x []); [right; left; exists [[]]; repeat split; try discriminate; [repeat constructor; intros []|left; repeat constructor; discriminate]|left; reflexivity]|].
    assert (CE : clean e /\ Forall slashless e).
    { destruct HE as [-> | ->]; split; repeat constructor; try discriminate. intros []. }
    destruct CE as [CE SE].
    destruct (HT (beqb x [])) as [-> HD]. clear HT.
    destruct (beqb x []) eqn:B0.
    + rewrite write_segs_true, <- slashed_app. right. left. eexists. split; [reflexivity|]. split; [apply Forall_app; auto|]. split; [destruct out; [congruence|discriminate]|].
      destruct C as [C|(r & -> & C & _)]; [left; apply Forall_app; auto|]. right. exists (r ++ e).
      split; [reflexivity|]. split; [apply Forall_app; auto|].
      destruct HE as [-> | ->]; [rewrite app_nil_r; apply HD; reflexivity|destruct r; discriminate].
    + destruct out as [|z out]; [congruence|]. cbn [write_segs app]. rewrite write_segs_true, <- app_assoc, <- slashed_app.
      inversion FO as [|? ? Hz FO']; subst.
      assert (CO : clean (out ++ e)).
      { apply Forall_app. split; [|exact CE]. destruct C as [C|(r & Er & C & _)]; [inversion C; auto|]. injection Er as -> ->. exact C. }
      assert (SO : Forall slashless (out ++ e)) by (apply Forall_app; auto).
      assert (ZD : z <> s2b ".").
      { intros ->. destruct C as [C|(r & Er & _)]; [inversion C as [|? ? O]; subst; destruct O as [O _]; apply O; reflexivity|discriminate Er]. }
      destruct z as [|c z]; [|right; right; exists (c :: z), (out ++ e); repeat split; auto; discriminate].
      cbn [app]. destruct (out ++ e) as [|w q] eqn:OE; [left; reflexivity|]. rewrite <- OE in *.
      right. left. exists (out ++ e). repeat split; auto. rewrite OE. discriminate.
Qed.

Theorem C43_dots_idempotent : forall p, remove_dots (remove_dots p) = remove_dots p.
Proof.
  intros p. destruct (remove_dots_form p) as [-> | [(segs & -> & F & N & C)|(x & l & -> & A & N & D & F & C)]].
  - reflexivity.
  - apply stable_rooted; auto.
  - apply stable_relative; auto.
Qed.
Print Assumptions C43_dots_idempotent.

(** No single dot is left over, and a double dot can only be the first segment. *)
Theorem C43_dots_gone : forall p a s b, split_slash (remove_dots p) = a ++ s :: b ->
  ~ dot1 s /\ (dot2 s -> a = [] \/ a = [[]]).
Proof.
  intros p a s b E.
  assert (K : forall l a s b, clean l -> l = a ++ s :: b -> ordinary s).
  { intros l a' s' b' C ->. apply Forall_app in C as [_ C]. inversion C; auto. }
  destruct (remove_dots_form p) as [R|[(segs & R & F & N & C)|(x & l & R & A & N & D & F & C)]]; rewrite R in E; clear R.
  - destruct a as [|? a]; [|destruct a; discriminate E]. injection E as <- <-. split; [discriminate|left; reflexivity].
  - pose proof (split_slashed [] segs (fun H => H) F) as S. cbn [app] in S. rewrite S in E.
    destruct a as [|z a]; [injection E as <- <-; split; [discriminate|left; reflexivity]|]. cbn [app] in E. injection E as <- E.
    destruct C as [C|(r & -> & C & NR)].
    + destruct (K _ _ _ _ C E) as [O1 O2]. split; [exact O1|]. intros Q. destruct (O2 Q).
    + destruct a as [|z a]; [injection E as <- <-; split; [discriminate|right; reflexivity]|]. cbn [app] in E. injection E as <- E.
      destruct (K _ _ _ _ C E) as [O1 O2]. split; [exact O1|]. intros Q. destruct (O2 Q).
  - rewrite split_slashed in E by auto.
    destruct a as [|z a]; [injection E as <- <-; split; [exact D|left; reflexivity]|]. cbn [app] in E. injection E as <- E.
    destruct (K _ _ _ _ C E) as [O1 O2]. split; [exact O1|]. intros Q. destruct (O2 Q).
Qed.
Print Assumptions C43_dots_gone.

Example dots_gone_demo : remove_dots (s2b "x/.././../y/./z") = s2b "../y/z".
Proof. vm_compute. reflexivity. Qed.

(** ** Well-formed URIs *)

Definition avoids (cs : string) (s : bytes) : Prop := Forall (fun c => ~ In c (s2b cs)) s.
Definition blankless (s : bytes) : Prop := Forall (fun c => is_space c = false) s.
Definition text (u : uri) : bytes := u_protocol u ++ u_authority u ++ u_pathname u ++ u_search u ++ u_hash u.

Definition scheme_ok (p : bytes) : Prop := p = [] \/ exists s, s <> [] /\ avoids ":\/?#" s /\ p = s ++ s2b ":".
Definition user_ok (a : bytes) : Prop :=
  a = [] \/ (exists n, avoids ":@/?#" n /\ a = n ++ s2b "@")
  \/ (exists n w, avoids ":@/?#" n /\ avoids ":@/?#" w /\ a = n ++ s2b ":" ++ w ++ s2b "@").
Definition port_ok (a : bytes) : Prop := a = [] \/ exists d, Forall (fun c => is_digit c = true) d /\ a = s2b ":" ++ d.
Definition authority_ok (a : bytes) : Prop :=
  a = [] \/ exists u h p, user_ok u /\ avoids ":@/?#" h /\ port_ok p /\ a = s2b "//" ++ u ++ h ++ p.
(** The first segment has no colon in it. *)
Definition colonless_start (p : bytes) : Prop := exists x t, p = x ++ t /\ avoids ":" x /\ at_slash t.

(** The generic syntax of RFC 3986, section 3, without white space, and without the at
    sign outside the authority. *)
Record wf_uri (u : uri) : Prop := {
  wf_scheme : scheme_ok (u_protocol u);
  wf_authority : authority_ok (u_authority u);
  wf_path : avoids "?#@" (u_pathname u);
  wf_rooted : u_authority u <> [] -> at_slash (u_pathname u);
  wf_unrooted : u_authority u = [] -> ~ exists t, u_pathname u = s2b "//" ++ t;
  wf_colon : u_protocol u = [] -> u_authority u = [] -> colonless_start (u_pathname u);
  wf_search : u_search u = [] \/ exists t, avoids "#@" t /\ u_search u = s2b "?" ++ t;
  wf_hash : u_hash u = [] \/ exists t, avoids "@" t /\ u_hash u = s2b "#" ++ t;
  wf_blank : blankless (text u)
}.

Lemma among_iff cs c : among cs c = true <-> In c (s2b cs).
Proof. unfold among. rewrite existsb_exists. split; [intros (x & I & E); apply aeqb_eq in E; congruence|intros I; exists c; split; [exact I|apply aeqb_refl]]. Qed.

Lemma among_neg cs c : negb (among cs c) = true <-> ~ In c (s2b cs).
Proof. rewrite negb_true_iff, <- (among_iff cs c). destruct (among cs c); split; congruence. Qed.

Lemma avoids_weaken cs ds s : (forall c, In c (s2b ds) -> In c (s2b cs)) -> avoids cs s -> avoids ds s.
Proof. intros H A. eapply Forall_impl; [|exact A]. cbn. intros c N I. auto. Qed.

Lemma avoids_b cs s : avoids cs s <-> forallb (fun c => negb (among cs c)) s = true.
Proof.
  unfold avoids. rewrite Forall_forall, forallb_forall. split; intros H c I; specialize (H c I); [apply among_neg|apply among_neg in H]; exact H.
Qed.

Definition stops (cs : string) (t : bytes) : Prop := t = [] \/ exists c r, t = c :: r /\ In c (s2b cs).

Lemma span_avoids cs s t : avoids cs s -> stops cs t -> span (fun c => negb (among cs c)) (s ++ t) = (s, t).
Proof.
  intros A S. apply span_all; [apply avoids_b; exact A|]. destruct S as [->|(c & r & -> & I)]; [reflexivity|].
  apply among_iff in I. rewrite I. reflexivity.
Qed.

Lemma stops_more cs ds t : (forall c, In c (s2b cs) -> In c (s2b ds)) -> stops cs t -> stops ds t.
Proof. intros H [->|(c & r & -> & I)]; [left; reflexivity|right; exists c, r; auto]. Qed.

Ltac chars := let c := fresh in let I := fresh in intros c I; cbn in I |- *; tauto.

(** Where the path, search and hash of a well-formed URI begin. *)
Lemma wf_tail u : wf_uri u -> stops "?#" (u_search u ++ u_hash u) /\ stops "#" (u_hash u).
Proof.
  intros W. assert (H : stops "#" (u_hash u)).
  { destruct (wf_hash u W) as [->|(t & _ & ->)]; [left; reflexivity|right; eexists _, _; split; [reflexivity|cbn; tauto]]. }
  split; [|exact H]. destruct (wf_search u W) as [->|(t & _ & ->)]; [eapply stops_more; [|exact H]; chars|].
  right. eexists _, _. split; [reflexivity|cbn; tauto].
Qed.

Lemma blankless_app a b : blankless (a ++ b) <-> blankless a /\ blankless b.
Proof. apply Forall_app. Qed.

Lemma blankless_span s : blankless s -> span is_space s = ([], s).
Proof. intros [|c t E _]; cbn; [reflexivity|]. rewrite E. reflexivity. Qed.

Lemma take_protocol_some s t : s <> [] -> avoids ":\/?#" s -> take_protocol (s ++ ":"%char :: t) = (s ++ s2b ":", t).
Proof.
  intros N A. unfold take_protocol. rewrite span_avoids; [|exact A|right; eexists _, _; split; [reflexivity|cbn; tauto]].
  destruct s; [congruence|]. reflexivity.
Qed.

Lemma take_protocol_none x t : avoids ":" x -> stops "/?#" t -> take_protocol (x ++ t) = ([], x ++ t).
Proof.
  intros A S. unfold take_protocol.
  assert (Q : forall x, avoids ":" x -> exists a b, span (fun c => negb (among ":\/?#" c)) (x ++ t) = (a, b) /\ (b = [] \/ exists c r, b = c :: r /\ c <> ":"%char)).
  { clear x A. induction 1 as [|c x C A IH].
    - cbn [app]. destruct S as [->|(c & r & -> & I)]; [eexists _, _; split; [reflexivity|auto]|].
      cbn [span]. assert (M : among ":\/?#" c = true) by (apply among_iff; cbn in I |- *; tauto). rewrite M.
      eexists _, _. split; [reflexivity|]. right. eexists _, _. split; [reflexivity|]. intros ->. cbn in I. intuition discriminate.
    - destruct IH as (a & b & E & B). cbn [app span]. destruct (negb (among ":\/?#" c)) eqn:M.
      + rewrite E. eexists _, _. split; [reflexivity|exact B].
      + eexists _, _. split; [reflexivity|]. right. eexists _, _. split; [reflexivity|]. intros ->. apply C. cbn. tauto. }
  destruct (Q x A) as (a & b & -> & B). destruct a as [|z a]; [reflexivity|].
  destruct B as [->|(c & r & -> & N)]; [reflexivity|]. apply aeqb_neq in N. rewrite N. reflexivity.
Qed.

Lemma take_user_none s : avoids "@" s -> take_user s = ([], s).
Proof.
  intros A. unfold take_user. pose proof (span_app (fun c => negb (among ":@" c)) s) as E.
  destruct (span _ s) as [a r]. cbn [fst snd] in E. destruct r as [|c t]; [reflexivity|].
  subst s. apply Forall_app in A as [_ A]. inversion A as [|? ? C A']; subst.
  assert (aeqb c "@" = false) as -> by (apply aeqb_neq; intros ->; apply C; cbn; tauto).
  pose proof (span_app (fun c => negb (among ":@" c)) t) as E.
  destruct (span _ t) as [b q]. cbn [fst snd] in E. destruct q as [|d q]; [reflexivity|].
  subst t. apply Forall_app in A' as [_ A']. inversion A' as [|? ? D _]; subst.
  assert (aeqb d "@" = false) as -> by (apply aeqb_neq; intros ->; apply D; cbn; tauto). reflexivity.
Qed.

Lemma take_user_ok u t : user_ok u -> (u = [] -> avoids "@" t) -> take_user (u ++ t) = (u, t).
Proof.
  intros [->|[(n & A & ->)|(n & w & A & B & ->)]] N.
  - apply take_user_none. auto.
  - unfold take_user. rewrite <- app_assoc. rewrite span_avoids; [reflexivity| |right; eexists _, _; split; [reflexivity|cbn; tauto]].
    eapply avoids_weaken; [|exact A]; chars.
  - unfold take_user. rewrite <- app_assoc. cbn [s2b list_ascii_of_string app]. rewrite span_avoids; [| |right; eexists _, _; split; [reflexivity|cbn; tauto]].
    2:{ eapply avoids_weaken; [|exact A]; chars. }
    replace (aeqb ":" "@") with false by reflexivity. cbv iota. rewrite <- app_assoc.
    rewrite span_avoids; [reflexivity| |right; eexists _, _; split; [reflexivity|cbn; tauto]].
    eapply avoids_weaken; [|exact B]; chars.
Qed.

Lemma take_host_ok h p t : avoids ":@/?#" h -> port_ok p -> stops "/?#" t -> take_host (h ++ p ++ t) = (h ++ p, t).
Proof.
  intros A P S. unfold take_host.
  assert (A' : avoids ":/?#" h) by (eapply avoids_weaken; [|exact A]; chars).
  destruct P as [->|(d & D & ->)].
  - cbn [app]. rewrite span_avoids; [|exact A'|eapply stops_more; [|exact S]; chars]. rewrite app_nil_r.
    destruct S as [->|(c & r & -> & I)]; [reflexivity|].
    assert (aeqb c ":" = false) as -> by (apply aeqb_neq; intros ->; cbn in I; intuition discriminate). reflexivity.
  - rewrite <- app_assoc. rewrite span_avoids; [|exact A'|right; eexists _, _; split; [reflexivity|cbn; tauto]].
    cbn [s2b list_ascii_of_string app]. rewrite aeqb_refl. cbn [app]. rewrite span_all; [reflexivity| |].
    + apply forallb_forall. rewrite Forall_forall in D. exact D.
    + destruct S as [->|(c & r & -> & I)]; [reflexivity|]. cbn in I. intuition (subst; reflexivity).
Qed.

Lemma take_authority_ok a t : authority_ok a -> avoids "@" t ->
  (a = [] -> ~ exists r, t = s2b "//" ++ r) -> (a <> [] -> stops "/?#" t) -> take_authority (a ++ t) = (a, t).
Proof.
  intros [->|(u & h & p & U & H & P & ->)] N Z S.
  - cbn [app]. destruct t as [|c t]; [reflexivity|]. destruct t as [|d t]; [reflexivity|]. cbn [take_authority].
    destruct (aeqb c "/") eqn:E1; [|reflexivity]. destruct (aeqb d "/") eqn:E2; [|reflexivity].
    apply aeqb_eq in E1 as ->. apply aeqb_eq in E2 as ->. destruct Z; [reflexivity|]. exists t. reflexivity.
  - specialize (S ltac:(discriminate)). cbn [s2b list_ascii_of_string app take_authority]. rewrite aeqb_refl. cbn [andb].
    rewrite <- !app_assoc. rewrite take_user_ok; [|exact U|].
    2:{ intros _. apply Forall_app. split; [eapply avoids_weaken; [|exact H]; chars|]. apply Forall_app. split; [|exact N].
        destruct P as [->|(d & D & ->)]; [constructor|]. constructor; [cbn; intuition discriminate|].
        eapply Forall_impl; [|exact D]. cbn. intros c C [<-|[]]. discriminate C. }
    rewrite take_host_ok by auto. reflexivity.
Qed.

Theorem C43_parse_partial : forall u, wf_uri u -> parse_uri (text u) = Some u.
Proof.
  intros u W. destruct (wf_tail u W) as [T1 T2]. unfold parse_uri. rewrite (blankless_span _ (wf_blank u W)).
  assert (BL := wf_blank u W).
  destruct W as [W1 W2 W3 W4 W5 W6 W7 W8 _]. destruct u as [p a f q h]. unfold text in *. cbn [u_protocol u_authority u_pathname u_search u_hash] in *.
  assert (NQ : avoids "@" q) by (destruct W7 as [->|(t & A & ->)]; [constructor|constructor; [cbn; intuition discriminate|eapply avoids_weaken; [|exact A]; chars]]).
  assert (NH : avoids "@" h) by (destruct W8 as [->|(t & A & ->)]; [constructor|constructor; [cbn; intuition discriminate|exact A]]).
  assert (NF : avoids "@" f) by (eapply avoids_weaken; [|exact W3]; chars).
  assert (NR : avoids "@" (f ++ q ++ h)) by (repeat (apply Forall_app; split; auto)).
  assert (T1' : stops "/?#" (q ++ h)) by (eapply stops_more; [|exact T1]; chars).
  assert (P1 : take_protocol (p ++ a ++ f ++ q ++ h) = (p, a ++ f ++ q ++ h)).
  { destruct W1 as [->|(s & N & A & ->)].
    - cbn [app]. destruct W2 as [->|(u & ho & po & _ & _ & _ & ->)].
      + cbn [app]. destruct (W6 eq_refl eq_refl) as (x & t & -> & A & S). rewrite <- app_assoc. apply take_protocol_none; [exact A|].
        destruct S as [->|[t' ->]]; [exact T1'|]. right. eexists _, _. split; [reflexivity|cbn; tauto].
      + reflexivity.
    - rewrite <- app_assoc. apply take_protocol_some; auto. }
  rewrite P1, take_authority_ok; auto.
  2:{ intros E (r & R). subst a. specialize (W5 eq_refl). apply W5. destruct f as [|c f].
      - cbn [app] in R. exfalso. destruct T1 as [E|(c & r' & E & I)]; rewrite E in R; [discriminate R|]. injection R as -> ->. cbn in I. intuition discriminate.
      - cbn [app] in R. destruct f as [|d f]; [|injection R as -> -> _; exists f; reflexivity].
        exfalso. cbn [app] in R. injection R as -> R. destruct T1 as [E|(c & r' & E & I)]; rewrite E in R; [discriminate R|]. injection R as -> ->. cbn in I. intuition discriminate. }
  2:{ intros N. destruct (W4 N) as [->|[t ->]]; [exact T1'|]. right. eexists _, _. split; [reflexivity|cbn; tauto]. }
  rewrite span_avoids; [|eapply avoids_weaken; [|exact W3]; chars|exact T1].
  assert (Q1 : take_search (q ++ h) = (q, h)).
  { destruct W7 as [->|(t & A & ->)].
    - cbn [app]. destruct W8 as [->|(t & A & ->)]; reflexivity.
    - cbn [s2b list_ascii_of_string app take_search]. rewrite aeqb_refl.
      apply (span_all (fun c => negb (aeqb c "#")) ("?"%char :: t) h).
      + cbn [forallb]. replace (negb (aeqb "?" "#")) with true by reflexivity. apply forallb_forall. intros c I. apply negb_true_iff, aeqb_neq. intros ->.
        apply (proj1 (Forall_forall _ _) A _ I). cbn. tauto.
      + destruct W8 as [->|(t' & A' & ->)]; reflexivity. }
  rewrite Q1.
  assert (H1 : take_hash h = (h, [])).
  { destruct W8 as [->|(t & A & ->)]; [reflexivity|]. cbn [s2b list_ascii_of_string app take_hash]. rewrite aeqb_refl. apply span_nil.
    rewrite !blankless_app in BL. destruct BL as (_ & _ & _ & _ & BL). apply blankless_app in BL. apply forallb_forall. intros c I.
    rewrite (proj1 (Forall_forall _ _) BL c I). reflexivity. }
  rewrite H1. reflexivity.
Qed.
Print Assumptions C43_parse_partial.

Definition u_demo : uri := Uri (s2b "http:") (s2b "//me:pw@host.org:80") (s2b "/a/../b") (s2b "?q=1&r=:") (s2b "#/x").

Ltac all_chars := repeat constructor; cbn; intuition discriminate.

Lemma u_demo_wf : wf_uri u_demo.
Proof.
  unfold u_demo. constructor; cbn [u_protocol u_authority u_pathname u_search u_hash text].
  - right. exists (s2b "http"). split; [discriminate|]. split; [all_chars|reflexivity].
  - right. exists (s2b "me:pw@"), (s2b "host.org"), (s2b ":80"). split; [|split; [all_chars|split; [|reflexivity]]].
    + right. right. exists (s2b "me"), (s2b "pw"). split; [all_chars|]. split; [all_chars|reflexivity].
    + right. exists (s2b "80"). split; [repeat constructor|reflexivity].
  - all_chars.
  - intros _. right. eexists. reflexivity.
  - discriminate.
  - discriminate.
  - right. exists (s2b "q=1&r=:"). split; [all_chars|reflexivity].
  - right. exists (s2b "/x"). split; [all_chars|reflexivity].
  - repeat constructor.
Qed.

Example u_demo_parse : parse_uri (s2b "http://me:pw@host.org:80/a/../b?q=1&r=:#/x") = Some u_demo.
Proof. vm_compute. reflexivity. Qed.

(** An at sign in the path or the query is taken for the end of the user name. *)
Theorem C43_at_sign_refuted : exists s u, s = s2b "http://h/x/../y@z" /\ parse_uri s = Some u /\
  u_authority u = s2b "//h/x/../y@z" /\ u_pathname u = [] /\ resolve_uri s [] = s.
Proof. eexists _, (Uri (s2b "http:") (s2b "//h/x/../y@z") [] [] []). split; [reflexivity|]. repeat split; vm_compute; reflexivity. Qed.
Print Assumptions C43_at_sign_refuted.

(** ** RFC 3986, section 5.2.2: transforming references *)

(** Section 5.2.3, merging a relative path with the base's. *)
Inductive merged : uri -> bytes -> bytes -> Prop :=
| merged_authority b p : u_authority b <> [] -> u_pathname b = [] -> merged b p (slash :: p)
| merged_slash b p d x : (u_authority b = [] \/ u_pathname b <> []) -> u_pathname b = d ++ slash :: x -> slashless x -> merged b p (d ++ slash :: p)
| merged_none b p : (u_authority b = [] \/ u_pathname b <> []) -> slashless (u_pathname b) -> merged b p p.

Inductive transformed (b h : uri) : uri -> Prop :=
| tr_scheme f : u_protocol h <> [] -> rds (u_pathname h) [] f ->
    transformed b h (Uri (u_protocol h) (u_authority h) f (u_search h) (u_hash h))
| tr_authority f : u_protocol h = [] -> u_authority h <> [] -> rds (u_pathname h) [] f ->
    transformed b h (Uri (u_protocol b) (u_authority h) f (u_search h) (u_hash h))
| tr_same : u_protocol h = [] -> u_authority h = [] -> u_pathname h = [] ->
    transformed b h (Uri (u_protocol b) (u_authority b) (u_pathname b) (match u_search h with [] => u_search b | q => q end) (u_hash h))
| tr_absolute f t : u_protocol h = [] -> u_authority h = [] -> u_pathname h = slash :: t -> rds (u_pathname h) [] f ->
    transformed b h (Uri (u_protocol b) (u_authority b) f (u_search h) (u_hash h))
| tr_relative m f : u_protocol h = [] -> u_authority h = [] -> u_pathname h <> [] -> (forall t, u_pathname h <> slash :: t) ->
    merged b (u_pathname h) m -> rds m [] f ->
    transformed b h (Uri (u_protocol b) (u_authority b) f (u_search h) (u_hash h)).

(** Paths on which the code follows RFC 3986: empty, rooted and not climbing above the
    root, or without dot segments. *)
Definition fair_path (p : bytes) : Prop :=
  p = [] \/ (exists segs, segs <> [] /\ Forall slashless segs /\ grounded segs /\ p = slashed segs)
  \/ (exists x l, slashless x /\ x <> [] /\ Forall slashless l /\ clean (x :: l) /\ p = x ++ slashed l).

Lemma rds_clean l : Forall slashless l -> clean l -> forall o, rds (slashed l) o (o ++ slashed l).
Proof.
  induction 1 as [|s l S F IH]; intros C o; cbn [slashed]; [rewrite app_nil_r; apply rds_end|]. inversion C as [|? ? O C']; subst.
  apply rds_E1; auto; [apply at_slashed|]. specialize (IH C' (o ++ slash :: s)). rewrite <- app_assoc in IH. exact IH.
Qed.

Lemma fair_rds p : fair_path p -> rds p [] (remove_dots p).
Proof.
  intros [->|[(segs & N & F & G & ->)|(x & l & S & N & F & C & ->)]].
  - apply rds_end.
  - apply C43_dots_rfc_partial; auto.
  - inversion C as [|? ? O C']; subst. rewrite stable_relative; auto; [|intros ->; apply (proj1 O); reflexivity].
    apply rds_E2; auto; [apply at_slashed|]. apply (rds_clean l F C' x).
Qed.

Lemma upto_last_none s : slashless s -> upto_last_slash s = [].
Proof.
  induction s as [|c s IH]; intros A; cbn; [reflexivity|]. rewrite IH by (intros I; apply A; right; exact I).
  assert (aeqb c "/" = false) as -> by (apply aeqb_neq; intros ->; apply A; left; reflexivity). reflexivity.
Qed.

Lemma upto_last_some d x : slashless x -> upto_last_slash (d ++ slash :: x) = d ++ s2b "/".
Proof.
  intros A. induction d as [|c d IH]; cbn [app upto_last_slash].
  - rewrite upto_last_none by exact A. reflexivity.
  - rewrite IH. destruct (d ++ s2b "/") eqn:E; [destruct d; discriminate E|reflexivity].
Qed.

(** A base path that is kept has no dot segments. *)
Definition dotless (p : bytes) : Prop := forall s, In s (split_slash p) -> ordinary s.

Lemma dotless_stable p : dotless p -> remove_dots p = p.
Proof.
  intros D. destruct (split_slash_inv p) as (x & l & E & -> & A & F). unfold dotless in D. rewrite E in D.
  assert (C : clean l) by (apply Forall_forall; intros s I; apply D; right; exact I).
  pose proof (D x (or_introl eq_refl)) as O.
  destruct x as [|c x]; [|apply stable_relative; auto; [discriminate|intros Q; apply (proj1 O); exact Q]].
  cbn [app]. destruct l as [|y l]; [reflexivity|]. apply stable_rooted; auto. discriminate.
Qed.

Lemma last_slash_cases p : slashless p \/ exists d x, p = d ++ slash :: x /\ slashless x.
Proof.
  induction p as [|c p [A|(d & x & -> & A)]]; [left; intros []| |right; exists (c :: d), x; auto].
  destruct (ascii_dec c slash) as [->|N]; [right; exists [], p; auto|left; intros [I|I]; auto].
Qed.

(** Theorem: resolving follows RFC 3986 on well-formed URIs. *)
Theorem C43_resolve_rfc_partial : forall b h, wf_uri b -> wf_uri h ->
  fair_path (u_pathname h) -> (forall m, merged b (u_pathname h) m -> fair_path m) -> dotless (u_pathname b) ->
  exists t, transformed b h t /\ resolve_uri (text b) (text h) = text t.
Proof.
  intros b h WB WH FH FM D. unfold resolve_uri. rewrite !C43_parse_partial by auto.
  destruct h as [p a f q x]. cbn [u_protocol u_authority u_pathname u_search u_hash] in *.
  destruct p as [|pc p]; cbn [nonempty orb].
  2:{ eexists. split; [apply tr_scheme; cbn [u_protocol u_pathname]; [discriminate|apply fair_rds; exact FH]|]. reflexivity. }
  destruct a as [|ac a]; cbn [nonempty orb].
  2:{ eexists. split; [apply tr_authority; cbn [u_protocol u_authority u_pathname]; [reflexivity|discriminate|apply fair_rds; exact FH]|]. reflexivity. }
  destruct f as [|fc f]; cbn [nonempty orb negb].
  { eexists. split; [apply tr_same; reflexivity|]. rewrite (dotless_stable _ D). unfold text. cbn. destruct q; reflexivity. }
  destruct (aeqb fc "/") eqn:S.
  { apply aeqb_eq in S as ->. eexists. split; [eapply tr_absolute; [reflexivity..|]; apply fair_rds; exact FH|]. reflexivity. }
  assert (NS : forall t, fc :: f <> slash :: t) by (intros t Q; injection Q as -> ->; discriminate S).
  set (m := (if nonempty (u_authority b) && negb (nonempty (u_pathname b)) then s2b "/" else []) ++ upto_last_slash (u_pathname b) ++ fc :: f).
  assert (M : merged b (fc :: f) m).
  { subst m. destruct (u_authority b) as [|c r] eqn:EA; [|destruct (u_pathname b) as [|c' r'] eqn:EP]; cbn [nonempty andb negb app].
    - destruct (last_slash_cases (u_pathname b)) as [L|(d & y & EP & L)].
      + rewrite upto_last_none by exact L. apply merged_none; auto.
      + rewrite EP, upto_last_some by exact L. rewrite <- app_assoc. eapply merged_slash; eauto.
    - cbn. apply merged_authority; congruence.
    - destruct (last_slash_cases (u_pathname b)) as [L|(d & y & EP' & L)]; rewrite EP in *.
      + rewrite upto_last_none by exact L. apply merged_none; [right; rewrite EP; discriminate|rewrite EP; exact L].
      + rewrite EP', upto_last_some by exact L. rewrite <- app_assoc. eapply merged_slash; [right; rewrite EP; discriminate|rewrite EP; exact EP'|exact L]. }
  eexists. split; [eapply tr_relative with (m := m); [reflexivity|reflexivity|discriminate|exact NS|exact M|apply fair_rds; apply FM; exact M]|].
  reflexivity.
Qed.
Print Assumptions C43_resolve_rfc_partial.

(** A base and a reference that meet the hypotheses: RFC 3986, section 5.4, "../g". *)
Definition u_base : uri := Uri (s2b "http:") (s2b "//a") (s2b "/b/c/d;p") (s2b "?q") [].
Definition u_ref : uri := Uri [] [] (s2b "../g") [] [].

Ltac sless := cbn; intros HS; repeat (destruct HS as [HS|HS]; try discriminate HS); try destruct HS.

Lemma u_base_wf : wf_uri u_base.
Proof.
  unfold u_base. constructor; cbn [u_protocol u_authority u_pathname u_search u_hash text]; try discriminate.
  - right. exists (s2b "http"). split; [discriminate|]. split; [all_chars|reflexivity].
  - right. exists [], (s2b "a"), []. split; [left; reflexivity|]. split; [all_chars|]. split; [left; reflexivity|reflexivity].
  - all_chars.
  - intros _. right. eexists. reflexivity.
  - right. exists (s2b "q"). split; [all_chars|reflexivity].
  - left. reflexivity.
  - repeat constructor.
Qed.

Lemma u_ref_wf : wf_uri u_ref.
Proof.
  unfold u_ref. constructor; cbn [u_protocol u_authority u_pathname u_search u_hash text].
  - left. reflexivity.
  - left. reflexivity.
  - all_chars.
  - congruence.
  - intros _ (t & Q). discriminate Q.
  - intros _ _. exists (s2b ".."), (s2b "/g"). split; [reflexivity|]. split; [all_chars|right; eexists; reflexivity].
  - left. reflexivity.
  - left. reflexivity.
  - repeat constructor.
Qed.

Example resolve_demo : resolve_uri (text u_base) (text u_ref) = s2b "http://a/b/g".
Proof. vm_compute. reflexivity. Qed.

Example resolve_demo_merged : forall m, merged u_base (u_pathname u_ref) m -> fair_path m.
Proof.
  intros m M. inversion M as [? ? A B|? ? d x A B C|? ? A B]; subst; [discriminate B| |destruct B; cbn; tauto].
  assert (EM : upto_last_slash (u_pathname u_base) = d ++ s2b "/") by (rewrite B; apply upto_last_some; exact C).
  replace (d ++ slash :: u_pathname u_ref) with ((d ++ s2b "/") ++ u_pathname u_ref) by (rewrite <- app_assoc; reflexivity).
  rewrite <- EM. right. left. exists [s2b "b"; s2b "c"; s2b ".."; s2b "g"]. split; [discriminate|]. split; [|split; [|reflexivity]].
  - repeat constructor; sless.
  - intros a b E. pose proof (f_equal (firstn (List.length a)) E) as Q.
    rewrite firstn_app, Nat.sub_diag, firstn_all, app_nil_r in Q. rewrite <- Q.
    generalize (List.length a). intros n. do 4 (destruct n as [|n]; [cbn; lia|]). cbn [firstn]. rewrite firstn_nil. cbn. lia.
Qed.

(** ** Resolving what is already resolved *)

Lemma loop_chars (Q : ascii -> Prop) segs : Forall (Forall Q) segs -> forall out last, Forall (Forall Q) out ->
  Forall (Forall Q) (fst (dots_loop segs out last)).
Proof.
  induction 1 as [|s segs S F IH]; intros out last O; cbn [dots_loop]; [exact O|].
  destruct (beqb s (s2b ".")); [apply IH; exact O|]. destruct (beqb s (s2b "..")).
  - apply IH. destruct out as [|x out]; [auto|].
    assert (P : forall l, Forall (Forall Q) l -> Forall (Forall Q) (removelast l)).
    { induction 1 as [|y l Y A IHl]; cbn; [constructor|]. destruct l; [constructor|constructor; auto]. }
    apply P. exact O.
  - apply IH. apply Forall_app. auto.
Qed.

Lemma slashed_chars (Q : ascii -> Prop) l : Q slash -> Forall (Forall Q) l <-> Forall Q (slashed l) /\ Forall (Forall Q) l.
Proof. intros S. split; [|tauto]. intros F. split; [|exact F]. induction F; cbn [slashed]; [constructor|]. constructor; [exact S|]. apply Forall_app. auto. Qed.

Lemma remove_dots_chars (Q : ascii -> Prop) p : Q slash -> Forall Q p -> Forall Q (remove_dots p).
Proof.
  intros S F. destruct (split_slash_inv p) as (x & l & E & P & A & L).
  assert (X : Forall Q x /\ Forall (Forall Q) l).
  { subst p. apply Forall_app in F as [F1 F2]. split; [exact F1|]. clear E A L. induction l as [|y l IH]; [constructor|].
    cbn [slashed] in F2. inversion F2 as [|? ? _ F3]; subst. apply Forall_app in F3 as [F3 F4]. constructor; auto. }
  destruct X as [X1 X2]. rewrite P. destruct l as [|y l].
  - cbn [slashed]. rewrite app_nil_r. cbn [slashed] in P. rewrite app_nil_r in P. subst p.
    unfold remove_dots. rewrite E. destruct (beqb x (s2b ".")); [constructor|exact X1].
  - rewrite remove_dots_eq by (auto; discriminate).
    assert (O : Forall (Forall Q) (if beqb x [] then [] else if beqb x (s2b ".") then [] else [x])).
    { destruct (beqb x []); [constructor|]. destruct (beqb x (s2b ".")); [constructor|auto]. }
    pose proof (loop_chars Q _ X2 _ (if beqb x (s2b "..") then 1%nat else 0%nat) O) as R.
    destruct (dots_loop _ _ _) as [out last]. cbn [fst] in R. apply Forall_app. split.
    + destruct out as [|z out]; [constructor|]. cbn [write_segs]. rewrite write_segs_true. inversion R as [|? ? R1 R2]; subst.
      apply (slashed_chars Q out S) in R2 as [R2 _]. repeat (apply Forall_app; split); auto. destruct (beqb x []); [constructor; auto|constructor].
    + unfold tail_of. apply Forall_app. split; [destruct out; [destruct (beqb x [])|]|destruct (_ && _)%bool]; repeat constructor; exact S.
Qed.

Lemma remove_dots_rooted p : at_slash p -> at_slash (remove_dots p).
Proof.
  intros [->|[t ->]]; [left; reflexivity|right]. destruct (split_slash_inv t) as (x & l & E & -> & A & L).
  change (slash :: x ++ slashed l) with ([] ++ slashed (x :: l)).
  rewrite remove_dots_eq; [|intros []|auto|discriminate]. destruct (dots_loop _ _ _) as [out last].
  change (beqb [] []) with true. destruct out as [|z out]; cbn [write_segs app]; eexists; reflexivity.
Qed.

Lemma upto_last_split s : exists x, s = upto_last_slash s ++ x.
Proof.
  destruct (last_slash_cases s) as [A|(d & x & -> & A)].
  - rewrite upto_last_none by exact A. exists s. reflexivity.
  - rewrite upto_last_some by exact A. exists x. rewrite <- app_assoc. reflexivity.
Qed.

Lemma wf_assemble p a f q x : p <> [] -> scheme_ok p -> a <> [] -> authority_ok a -> avoids "?#@" f -> at_slash f ->
  (q = [] \/ exists t, avoids "#@" t /\ q = s2b "?" ++ t) -> (x = [] \/ exists t, avoids "@" t /\ x = s2b "#" ++ t) ->
  blankless p -> blankless a -> blankless f -> blankless q -> blankless x -> wf_uri (Uri p a f q x).
Proof.
  intros. constructor; cbn [u_protocol u_authority u_pathname u_search u_hash]; auto; try congruence.
  unfold text. cbn. rewrite !blankless_app. tauto.
Qed.

(** Theorem: a URI obtained by resolving against a base with a scheme and an authority is
    left alone by any further resolving. *)
Theorem C43_resolve_stable_partial : forall b h c, wf_uri b -> wf_uri h ->
  u_protocol b <> [] -> u_authority b <> [] -> (u_protocol h <> [] -> u_authority h <> []) ->
  parse_uri c <> None ->
  resolve_uri c (resolve_uri (text b) (text h)) = resolve_uri (text b) (text h).
Proof.
  intros b h c WB WH NP NA HA PC. unfold resolve_uri at 2 3. rewrite !C43_parse_partial by auto.
  match goal with |- resolve_uri c ?r = ?r => set (res := r) end.
  assert (T : exists p a f q x, p <> [] /\ wf_uri (Uri p a (remove_dots f) q x) /\ res = text (Uri p a (remove_dots f) q x)).
  { pose proof (wf_blank b WB) as BB. pose proof (wf_blank h WH) as BH. unfold text in BB, BH.
    rewrite !blankless_app in BB, BH. destruct BB as (B1 & B2 & B3 & B4 & B5). destruct BH as (H1 & H2 & H3 & H4 & H5).
    assert (SP : is_space slash = false) by reflexivity.
    assert (SA : ~ In slash (s2b "?#@")) by (cbn; intuition discriminate).
    destruct WB as [V1 V2 V3 V4 V5 V6 V7 V8 _]. destruct WH as [W1 W2 W3 W4 W5 W6 W7 W8 _].
    subst res.
    destruct h as [p a f q x]. cbn [u_protocol u_authority u_pathname u_search u_hash] in *.
    destruct p as [|pc p]; cbn [nonempty orb].
    2:{ specialize (HA ltac:(discriminate)). exists (pc :: p), a, f, q, x. split; [discriminate|]. split; [|reflexivity].
        apply wf_assemble; auto; try discriminate; [apply remove_dots_chars; auto|
          apply remove_dots_rooted; auto|apply remove_dots_chars; auto]. }
    destruct a as [|ac a]; cbn [nonempty orb].
    2:{ exists (u_protocol b), (ac :: a), f, q, x. split; [exact NP|]. split; [|reflexivity].
        apply wf_assemble; auto; try discriminate; [apply remove_dots_chars; auto|
          apply remove_dots_rooted; apply W4; discriminate|apply remove_dots_chars; auto]. }
    destruct f as [|fc f]; cbn [nonempty orb negb].
    { exists (u_protocol b), (u_authority b), (u_pathname b), (if nonempty q then q else u_search b), x. split; [exact NP|].
      split; [|reflexivity]. apply wf_assemble; auto; [apply remove_dots_chars; auto|apply remove_dots_rooted; auto|destruct q; auto|apply remove_dots_chars; auto|destruct q; auto]. }
    destruct (aeqb fc "/") eqn:S.
    { apply aeqb_eq in S as ->. exists (u_protocol b), (u_authority b), (slash :: f), q, x. split; [exact NP|]. split; [|reflexivity].
      apply wf_assemble; auto; [apply remove_dots_chars; auto|apply remove_dots_rooted; right; eexists; reflexivity|apply remove_dots_chars; auto]. }
    eexists (u_protocol b), (u_authority b), _, q, x. split; [exact NP|]. split; [|reflexivity].
    assert (UC : forall Q : ascii -> Prop, Forall Q (u_pathname b) -> Forall Q (upto_last_slash (u_pathname b))).
    { intros Q F. destruct (upto_last_split (u_pathname b)) as [y E]. rewrite E in F. apply Forall_app in F as [F _]. exact F. }
    apply wf_assemble; auto.
    - apply remove_dots_chars; auto. apply Forall_app. split; [destruct (_ && _)%bool; [constructor; [exact SA|constructor]|constructor]|].
      apply Forall_app. split; [apply UC; exact V3|exact W3].
    - apply remove_dots_rooted. right. destruct (u_authority b) eqn:EA; [congruence|]. destruct (V4 ltac:(discriminate)) as [EP|[t EP]]; rewrite EP; cbn [nonempty andb negb].
      + eexists. reflexivity.
      + cbn [app upto_last_slash]. destruct (upto_last_slash t); eexists; reflexivity.
    - apply remove_dots_chars; auto. apply Forall_app. split; [destruct (_ && _)%bool; [constructor; [exact SP|constructor]|constructor]|].
      apply Forall_app. split; [apply UC; exact B3|exact H3]. }
  destruct T as (p & a & f & q & x & N & W & ->). unfold resolve_uri. destruct (parse_uri c); [|congruence].
  rewrite C43_parse_partial by exact W. cbn [u_protocol u_authority u_pathname u_search u_hash].
  destruct p as [|pc p]; [congruence|]. cbn [nonempty orb]. rewrite C43_dots_idempotent. reflexivity.
Qed.
Print Assumptions C43_resolve_stable_partial.

Example resolve_stable_demo : u_protocol u_base <> [] /\ u_authority u_base <> [] /\ (u_protocol u_ref <> [] -> u_authority u_ref <> []) /\ parse_uri [] <> None.
Proof. repeat split; try discriminate. cbn. congruence. Qed.

(** Without an authority, a dot segment can come to light in a second resolving: RFC 3986,
    section 3.3, forbids a path that begins with two slashes there, and a colon in the
    first segment of a relative path. *)
Theorem C43_resolve_stable_refuted : exists s, resolve_uri s [] = s2b "b:./c" /\ resolve_uri (resolve_uri s []) [] = s2b "b:c".
Proof. exists (s2b "x/../b:./c"). split; vm_compute; reflexivity. Qed.
Print Assumptions C43_resolve_stable_refuted.

(** ** C46: percent-decoding *)

(** The two-digit hexadecimal codes, in either case. *)
Definition hex_code (v : N) (c : ascii) : Prop :=
  In (v, c) (List.combine (List.map N.of_nat (seq 0 16)) (s2b "0123456789abcdef") ++ List.combine (List.map N.of_nat (seq 0 16)) (s2b "0123456789ABCDEF")).

(** [encoded s t]: t writes every byte of s either as itself, unless it is a percent sign,
    or as a percent sign and two hexadecimal digits (RFC 3986, section 2.1). *)
Inductive encoded : bytes -> bytes -> Prop :=
| enc_end : encoded [] []
| enc_plain c s t : c <> "%"%char -> encoded s t -> encoded (c :: s) (c :: t)
| enc_hex c a b x y s t : hex_code x a -> hex_code y b -> bval c = 16 * x + y -> encoded s t -> encoded (c :: s) ("%"%char :: a :: b :: t).

Lemma hex_code_digit v c : hex_code v c -> hex_digit c = Some v.
Proof. intros H. cbn in H. repeat (destruct H as [H|H]; [injection H as <- <-; reflexivity|]). destruct H. Qed.

Theorem C46_decodes : forall s t, encoded s t -> unescape_uri t = s.
Proof.
  induction 1 as [|c s t N E IH|c a b x y s t X Y V E IH]; cbn [unescape_uri]; [reflexivity| |].
  - apply aeqb_neq in N. rewrite N, IH. reflexivity.
  - rewrite aeqb_refl. unfold hex2. rewrite (hex_code_digit _ _ X), (hex_code_digit _ _ Y), IH, <- V. f_equal. apply bchr_bval.
Qed.
Print Assumptions C46_decodes.

Example encoded_demo : encoded (s2b "a/%b") (s2b "a%2f%25b").
Proof.
  apply enc_plain; [discriminate|]. apply (enc_hex "/" "2" "f" 2 15); [cbn; tauto|cbn; tauto|reflexivity|].
  apply (enc_hex "%" "2" "5" 2 5); [cbn; tauto|cbn; tauto|reflexivity|]. apply enc_plain; [discriminate|]. constructor.
Qed.

(** Every byte string has an encoding, so decoding is onto. *)
Theorem C46_onto : forall s, exists t, unescape_uri t = s.
Proof.
  induction s as [|c s (t & <-)]; [exists []; reflexivity|].
  assert (S : forallb (fun c => match hex2 (nth (N.to_nat (bval c / 16)) (s2b "0123456789abcdef") "0"%char) (nth (N.to_nat (bval c mod 16)) (s2b "0123456789abcdef") "0"%char) with Some d => aeqb d c | None => false end) all_bytes = true) by (vm_compute; reflexivity).
  pose proof (sweep _ S c) as T. cbv beta in T.
  exists ("%"%char :: nth (N.to_nat (bval c / 16)) (s2b "0123456789abcdef") "0"%char :: nth (N.to_nat (bval c mod 16)) (s2b "0123456789abcdef") "0"%char :: t).
  cbn [unescape_uri]. rewrite aeqb_refl. destruct (hex2 _ _); [|discriminate]. apply aeqb_eq in T as ->. reflexivity.
Qed.
Print Assumptions C46_onto.

(** A percent sign not followed by two hexadecimal digits should stand for itself; a sign
    or white space before one digit is read as a code all the same. *)
Theorem C46_malformed_refuted : exists s t u, s = s2b "%+1" /\ unescape_uri s = ["001"%char] /\
  t = s2b "% f" /\ unescape_uri t = ["015"%char] /\ u = s2b "%-1" /\ unescape_uri u = ["255"%char].
Proof. exists (s2b "%+1"), (s2b "% f"), (s2b "%-1"). repeat split; vm_compute; reflexivity. Qed.
Print Assumptions C46_malformed_refuted.

(** Other malformed codes are kept. *)
Theorem C46_malformed_kept_partial : forall a b t, hex_digit a = None -> is_space a = false -> a <> "+"%char -> a <> "-"%char -> a <> "000"%char ->
  unescape_uri ("%"%char :: a :: b :: t) = "%"%char :: a :: b :: unescape_uri t.
Proof.
  intros a b t H S P M Z. cbn [unescape_uri]. rewrite aeqb_refl. unfold hex2. rewrite H, S.
  apply aeqb_neq in P, M, Z. rewrite P, M, Z. reflexivity.
Qed.
Print Assumptions C46_malformed_kept_partial.

Example malformed_demo : unescape_uri (s2b "100%zz%2") = s2b "100%zz%2".
Proof. vm_compute. reflexivity. Qed.
