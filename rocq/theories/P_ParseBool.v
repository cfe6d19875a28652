(** Property C33: text to boolean. *)
From Verif Require Import Base CNum ParseBool.
Open Scope N_scope.

(** ** Specification (independent of the model's helpers) *)

(** White space: tab, newline, vertical tab, form feed, carriage return, space. *)
Definition white (c : ascii) : Prop := In (bval c) [9; 10; 11; 12; 13; 32].

(** [c] is the lower-case letter [k], or its capital. *)
Definition same_letter (c k : ascii) : Prop := c = k \/ (97 <= bval k <= 122 /\ bval c + 32 = bval k).

(** [w] is, ignoring case, a non-empty abbreviation (prefix) of [full]. *)
Definition abbreviates (w full : bytes) : Prop :=
  w <> [] /\ exists head rest, full = head ++ rest /\ Forall2 same_letter w head.

(** The words that mean false. *)
Definition false_word (w : bytes) : Prop :=
  abbreviates w (s2b "no") \/ abbreviates w (s2b "false") \/ (w <> [] /\ Forall (fun c => bval c = 48) w).

(** ** Proofs *)

Definition blank (s : bytes) : Prop := forallb is_space s = true.
Definition abbreviates_l (w full : bytes) : Prop :=
  w <> [] /\ exists rest, full = map to_lower w ++ rest.
Definition false_word_l (w : bytes) : Prop :=
  abbreviates_l w (s2b "no") \/ abbreviates_l w (s2b "false") \/ (exists n, w = repeat "0"%char (S n)).

Lemma blank_white s : blank s <-> Forall white s.
Proof.
  unfold blank. rewrite forallb_forall, Forall_forall.
  assert (K : forallb (fun c => Bool.eqb (is_space c) (existsb (N.eqb (bval c)) [9; 10; 11; 12; 13; 32])) all_bytes = true)
    by (vm_compute; reflexivity).
  assert (Q : forall c, is_space c = true <-> white c).
  { intros c. pose proof (sweep _ K c) as S. cbv beta in S. apply eqb_prop in S. rewrite S, existsb_exists.
    unfold white. split.
    - intros (x & H & E). apply N.eqb_eq in E. rewrite E. exact H.
    - intros H. exists (bval c). split; [exact H|apply N.eqb_refl]. }
  split; intros H c Hc; apply Q; auto.
Qed.

Lemma lower_same c k : In k (s2b "nofalse") -> to_lower c = k <-> same_letter c k.
Proof.
  intros Hk.
  assert (K : forallb (fun c => forallb (fun k => Bool.eqb (aeqb (to_lower c) k)
      (aeqb c k || ((97 <=? bval k) && (bval k <=? 122) && (bval c + 32 =? bval k)))%bool) (s2b "nofalse")) all_bytes = true)
    by (vm_compute; reflexivity).
  pose proof (sweep _ K c) as S. cbv beta in S. rewrite forallb_forall in S. specialize (S k Hk).
  apply eqb_prop in S. rewrite <- aeqb_eq, S. unfold same_letter.
  rewrite orb_true_iff, !andb_true_iff, aeqb_eq, !N.leb_le, N.eqb_eq. intuition.
Qed.

Lemma abbr_iff w full : (forall k, In k full -> In k (s2b "nofalse")) -> abbreviates_l w full <-> abbreviates w full.
Proof.
  intros HF. unfold abbreviates_l, abbreviates. split; intros (Hn & H); (split; [exact Hn|]).
  - destruct H as (rest & ->). exists (map to_lower w), rest. split; [reflexivity|].
    clear Hn. induction w as [|c w IH]; [constructor|]. cbn [map]. constructor.
    + apply lower_same; [apply HF; left; reflexivity|reflexivity].
    + apply IH. intros k Hk. apply HF. right. exact Hk.
  - destruct H as (head & rest & -> & H). exists rest. f_equal.
    clear Hn. induction H as [|c k w head Hc _ IH]; [reflexivity|]. cbn [map]. f_equal.
    + symmetry. apply lower_same; [apply HF; left; reflexivity|exact Hc].
    + apply IH. intros x Hx. apply HF. right. exact Hx.
Qed.

Lemma false_word_iff w : false_word_l w <-> false_word w.
Proof.
  unfold false_word_l, false_word.
  rewrite !abbr_iff by (intros k Hk; vm_compute in Hk |- *; intuition).
  assert (Z : (exists n, w = repeat "0"%char (S n)) <-> (w <> [] /\ Forall (fun c => bval c = 48) w)).
  { split.
    - intros (n & ->). split; [discriminate|]. apply Forall_forall. intros c Hc.
      apply repeat_spec in Hc. subst c. reflexivity.
    - intros (Hn & H). destruct w as [|c w]; [congruence|]. exists (List.length w). clear Hn. cbn [repeat].
      assert (Q : forall x, bval x = 48 -> x = "0"%char).
      { intros x E. rewrite <- (bchr_bval x), E. reflexivity. }
      inversion H as [|? ? H1 H2]; subst. rewrite (Q c H1). f_equal. clear H H1.
      induction H2 as [|x w Hx _ IH]; [reflexivity|]. cbn. rewrite (Q x Hx). f_equal. exact IH. }
  rewrite Z. reflexivity.
Qed.

Lemma skip_space_app a b : blank a -> skip_space (a ++ b) = skip_space b.
Proof.
  unfold blank, skip_space. induction a as [|c a IH]; intros H; [reflexivity|].
  cbn [forallb app span] in *. apply andb_true_iff in H as [H1 H2]. rewrite H1.
  specialize (IH H2). destruct (span is_space (a ++ b)). cbn [snd] in *. exact IH.
Qed.

Lemma skip_space_split s : exists a, blank a /\ s = a ++ skip_space s /\
  (forall c t, skip_space s = c :: t -> is_space c = false).
Proof.
  unfold skip_space, blank. induction s as [|c s (a & H1 & H2 & H3)].
  - exists []. repeat split. discriminate.
  - cbn [span]. destruct (is_space c) eqn:E.
    + destruct (span is_space s) as [x y]. cbn [snd] in *. exists (c :: a). cbn. rewrite E, H1.
      repeat split; [|exact H3]. congruence.
    + exists []. cbn. repeat split. intros ? ? [= <- <-]. exact E.
Qed.

Lemma skip_space_nil s : skip_space s = [] <-> blank s.
Proof.
  split; intros H.
  - destruct (skip_space_split s) as (a & H1 & H2 & _). rewrite H, app_nil_r in H2. congruence.
  - rewrite <- (app_nil_r s). rewrite skip_space_app by exact H. reflexivity.
Qed.

Lemma at_end_iff s : at_end_after_space s = true <-> blank s.
Proof.
  unfold at_end_after_space. rewrite <- skip_space_nil. destruct (skip_space s); split; congruence.
Qed.

(** Letters of the words are not blanks, whatever their case. *)
Lemma lower_letter_not_space c k : aeqb (to_lower c) k = true ->
  In k (s2b "nofalse") -> is_space c = false.
Proof.
  intros H HI. apply aeqb_eq in H. subst k.
  assert (K : forallb (fun c => implb (existsb (aeqb (to_lower c)) (s2b "nofalse")) (negb (is_space c))) all_bytes = true)
    by (vm_compute; reflexivity).
  pose proof (sweep _ K c) as S. cbv beta in S.
  assert (E : existsb (aeqb (to_lower c)) (s2b "nofalse") = true).
  { apply existsb_exists. exists (to_lower c). split; [exact HI|apply aeqb_refl]. }
  rewrite E in S. cbn in S. apply negb_true_iff in S. exact S.
Qed.

Lemma match_tail_spec cmp : (forall k, In k cmp -> In k (s2b "nofalse")) -> forall s,
  blank (match_tail cmp s) <-> exists w b, s = w ++ b /\ blank b /\ exists r, cmp = map to_lower w ++ r.
Proof.
  induction cmp as [|k cmp IH]; intros HK s.
  - cbn [match_tail]. split.
    + intros H. exists [], s. repeat split; [exact H|]. exists []. reflexivity.
    + intros (w & b & -> & Hb & r & E). destruct w; [|discriminate]. exact Hb.
  - destruct s as [|c s]; cbn [match_tail].
    + split; intros _; [|reflexivity]. exists [], []. repeat split. exists (k :: cmp). reflexivity.
    + destruct (aeqb (to_lower c) k) eqn:E.
      * rewrite IH by (intros; apply HK; right; assumption). split.
        -- intros (w & b & -> & Hb & r & ->). exists (c :: w), b. repeat split; [exact Hb|].
           exists r. cbn. apply aeqb_eq in E. congruence.
        -- intros (w & b & E1 & Hb & r & E2). destruct w as [|c' w].
           ++ cbn in E1. subst b. unfold blank in Hb. cbn [forallb] in Hb.
              rewrite (lower_letter_not_space c k E (HK k (or_introl eq_refl))) in Hb. discriminate.
           ++ cbn in E1, E2. injection E1 as <- ->. injection E2 as -> ->.
              exists w, b. repeat split; [exact Hb|]. exists r. reflexivity.
      * split.
        -- intros H. exists [], (c :: s). repeat split; [exact H|]. exists (k :: cmp). reflexivity.
        -- intros (w & b & E1 & Hb & r & E2). destruct w as [|c' w].
           ++ cbn in E1. subst b. exact Hb.
           ++ cbn in E1, E2. injection E1 as <- ->. injection E2 as -> ->.
              rewrite aeqb_refl in E. discriminate.
Qed.

Lemma zeros_spec s : blank (snd (span (fun x => aeqb x "0") s)) <->
  exists n b, s = repeat "0"%char n ++ b /\ blank b.
Proof.
  induction s as [|c s IH].
  - cbn. split; [|reflexivity]. intros _. exists O, []. split; reflexivity.
  - cbn [span]. destruct (aeqb c "0") eqn:E.
    + apply aeqb_eq in E. subst c. destruct (span (fun x => aeqb x "0") s) as [x y]. cbn [snd] in *.
      rewrite IH. split.
      * intros (n & b & -> & Hb). exists (S n), b. split; [reflexivity|exact Hb].
      * intros (n & b & E1 & Hb). destruct n as [|n].
        -- cbn in E1. subst b. discriminate Hb.
        -- cbn in E1. injection E1 as ->. exists n, b. split; [reflexivity|exact Hb].
    + cbn [snd]. split.
      * intros H. exists O, (c :: s). split; [reflexivity|exact H].
      * intros (n & b & E1 & Hb). destruct n as [|n].
        -- cbn in E1. subst b. exact Hb.
        -- cbn in E1. injection E1 as -> ->. discriminate E.
Qed.

Lemma false_word_head c w : false_word_l (c :: w) ->
  (aeqb (to_lower c) "n" = true /\ exists r, s2b "o" = map to_lower w ++ r) \/
  (aeqb (to_lower c) "f" = true /\ exists r, s2b "alse" = map to_lower w ++ r) \/
  (c = "0"%char /\ exists n, w = repeat "0"%char n).
Proof.
  intros [(_ & r & E)|[(_ & r & E)|(n & E)]]; cbn in E.
  - left. injection E as E1 E2. split; [apply aeqb_eq; congruence|]. exists r. exact E2.
  - right; left. injection E as E1 E2. split; [apply aeqb_eq; congruence|]. exists r. exact E2.
  - right; right. injection E as -> ->. split; [reflexivity|]. exists n. reflexivity.
Qed.

Lemma parse_bool_false s : parse_bool s = false <->
  exists a w b, s = a ++ w ++ b /\ blank a /\ false_word_l w /\ blank b.
Proof.
  destruct (skip_space_split s) as (a & Ha & Hs & Hc). unfold parse_bool.
  destruct (skip_space s) as [|c t] eqn:E.
  { split; [discriminate|]. intros (a' & w & b & -> & Ha' & Hw & Hb).
    rewrite skip_space_app in E by exact Ha'. apply skip_space_nil in E.
    destruct w as [|c w]; [destruct Hw as [[H _]|[[H _]|(n & H)]]; cbn in H; congruence|].
    unfold blank in E. cbn [app forallb] in E. apply andb_true_iff in E as [E _].
    destruct (false_word_head c w Hw) as [(K & _)|[(K & _)|(-> & _)]].
    - rewrite (lower_letter_not_space c "n" K) in E; [discriminate|]. left; reflexivity.
    - rewrite (lower_letter_not_space c "f" K) in E; [discriminate|]. right; right; left; reflexivity.
    - discriminate E. }
  specialize (Hc c t eq_refl).
  assert (Dec : (exists a w b, s = a ++ w ++ b /\ blank a /\ false_word_l w /\ blank b) <->
                exists w b, t = w ++ b /\ blank b /\ false_word_l (c :: w)).
  { split.
    - intros (a' & w & b & Es & Ha' & Hw & Hb).
      destruct w as [|c' w]; [destruct Hw as [[H _]|[[H _]|(n & H)]]; cbn in H; congruence|].
      exists w, b.
      assert (Ec : is_space c' = false).
      { destruct (false_word_head c' w Hw) as [(K & _)|[(K & _)|(-> & _)]].
        - apply (lower_letter_not_space c' "n" K). left; reflexivity.
        - apply (lower_letter_not_space c' "f" K). right; right; left; reflexivity.
        - reflexivity. }
      rewrite Es, skip_space_app in E by exact Ha'. unfold skip_space in E.
      cbn [app span] in E. rewrite Ec in E. cbn [snd] in E. injection E as -> <-. auto.
    - intros (w & b & -> & Hb & Hw). exists a, (c :: w), b. repeat split; assumption. }
  rewrite Dec. clear Dec.
  destruct (aeqb (to_lower c) "n") eqn:En; [|destruct (aeqb (to_lower c) "f") eqn:Ef; [|destruct (aeqb c "0") eqn:E0]].
  - rewrite negb_false_iff, at_end_iff, match_tail_spec by (intros k Hk; vm_compute in Hk |- *; intuition).
    split; intros (w & b & Et & Hb & Hw); exists w, b; repeat split; try assumption.
    + left. split; [congruence|]. destruct Hw as [r Hr]. exists r. cbn. apply aeqb_eq in En. rewrite En. f_equal. exact Hr.
    + destruct (false_word_head c w Hw) as [(_ & K)|[(K & _)|(-> & _)]]; [exact K| |discriminate En].
      apply aeqb_eq in En, K. congruence.
  - rewrite negb_false_iff, at_end_iff, match_tail_spec by (intros k Hk; vm_compute in Hk |- *; intuition).
    split; intros (w & b & Et & Hb & Hw); exists w, b; repeat split; try assumption.
    + right; left. split; [congruence|]. destruct Hw as [r Hr]. exists r. cbn. apply aeqb_eq in Ef. rewrite Ef. f_equal. exact Hr.
    + destruct (false_word_head c w Hw) as [(K & _)|[(_ & K)|(-> & _)]]; [|exact K|discriminate Ef].
      congruence.
  - apply aeqb_eq in E0. subst c. rewrite negb_false_iff, at_end_iff, zeros_spec. split.
    + intros (n & b & -> & Hb). exists (repeat "0"%char n), b. repeat split; [exact Hb|].
      right; right. exists n. reflexivity.
    + intros (w & b & -> & Hb & Hw).
      destruct (false_word_head _ w Hw) as [(K & _)|[(K & _)|(_ & n & ->)]]; try discriminate K.
      exists n, b. split; [reflexivity|exact Hb].
  - split; [discriminate|]. intros (w & b & _ & _ & Hw).
    destruct (false_word_head c w Hw) as [(K & _)|[(K & _)|(-> & _)]]; try congruence. discriminate E0.
Qed.

(** C33.  The text is false exactly when, between blanks, it is a word meaning
    false; otherwise it is true. *)
Theorem C33_parse_bool_exact : forall s : bytes,
  parse_bool s = false <->
  exists a w b, s = a ++ w ++ b /\ Forall white a /\ false_word w /\ Forall white b.
Proof.
  intros s. rewrite parse_bool_false. split; intros (a & w & b & E & Ha & Hw & Hb); exists a, w, b;
    (split; [exact E|]); (split; [apply blank_white; exact Ha|]); (split; [apply false_word_iff; exact Hw|apply blank_white; exact Hb]).
Qed.
Print Assumptions C33_parse_bool_exact.

Example C33_cases :
  map parse_bool [s2b "  FaLs "; s2b "no"; s2b "f"; s2b " 000 "; s2b "false blah"; s2b ""; s2b "nope"; s2b "1"; s2b "0.0"]
  = [false; false; false; false; true; true; true; true; true].
Proof. vm_compute. reflexivity. Qed.

Example C33_witness : exists a w b, s2b "  FaLs " = a ++ w ++ b /\ Forall white a /\ false_word w /\ Forall white b.
Proof.
  exists (s2b "  "), (s2b "FaLs"), (s2b " "). split; [reflexivity|].
  assert (W : forall s, blank s -> Forall white s) by (intros s; apply blank_white).
  split; [apply W; reflexivity|]. split; [|apply W; reflexivity].
  apply false_word_iff. right; left. split; [discriminate|]. exists (s2b "e"). reflexivity.
Qed.
