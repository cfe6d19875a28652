(** Regular expressions as the C library's regexec decides them (no submatches, no
    anchors): used to transcribe the pattern of src/GuessScalar.cc. *)
From Verif Require Import Base.

Inductive re :=
| RNone
| REps
| RChr (f : ascii -> bool)
| RSeq (a b : re)
| RAlt (a b : re)
| RStar (a : re).

Fixpoint nullable (r : re) : bool :=
  match r with
  | RNone | RChr _ => false
  | REps | RStar _ => true
  | RSeq a b => nullable a && nullable b
  | RAlt a b => nullable a || nullable b
  end.

Fixpoint deriv (c : ascii) (r : re) : re :=
  match r with
  | RNone | REps => RNone
  | RChr f => if f c then REps else RNone
  | RSeq a b => if nullable a then RAlt (RSeq (deriv c a) b) (deriv c b) else RSeq (deriv c a) b
  | RAlt a b => RAlt (deriv c a) (deriv c b)
  | RStar a => RSeq (deriv c a) (RStar a)
  end.

(** Whether the whole text matches (Brzozowski derivatives). *)
Fixpoint rmatch (r : re) (s : bytes) : bool :=
  match s with [] => nullable r | c :: t => rmatch (deriv c r) t end.

(** ** The language of an expression *)
Inductive lang : re -> bytes -> Prop :=
| l_eps : lang REps []
| l_chr f c : f c = true -> lang (RChr f) [c]
| l_seq a b s t : lang a s -> lang b t -> lang (RSeq a b) (s ++ t)
| l_alt1 a b s : lang a s -> lang (RAlt a b) s
| l_alt2 a b s : lang b s -> lang (RAlt a b) s
| l_star0 a : lang (RStar a) []
| l_star1 a s t : lang a s -> lang (RStar a) t -> lang (RStar a) (s ++ t).

Lemma nullable_lang r : nullable r = true <-> lang r [].
Proof.
  induction r as [| |f|a IHa b IHb|a IHa b IHb|a IHa]; cbn.
  - split; [discriminate|inversion 1].
  - split; [constructor|reflexivity].
  - split; [discriminate|inversion 1].
  - rewrite andb_true_iff, IHa, IHb. split.
    + intros [A B]. apply (l_seq a b [] []); assumption.
    + intros L. inversion L as [| |? ? s t A B E E'| | | |]; subst. apply app_eq_nil in E' as [-> ->]. auto.
  - rewrite orb_true_iff, IHa, IHb. split; [intros [A|B]; [apply l_alt1|apply l_alt2]; assumption|].
    intros L. inversion L; subst; auto.
  - split; [constructor|reflexivity].
Qed.

Lemma deriv_lang r : forall c s, lang (deriv c r) s <-> lang r (c :: s).
Proof.
  induction r as [| |f|a IHa b IHb|a IHa b IHb|a IHa]; intros c s; cbn.
  - split; inversion 1.
  - split; inversion 1.
  - destruct (f c) eqn:F; split; intros L; inversion L; subst; try constructor; auto; congruence.
  - assert (S1 : forall s, lang (RSeq (deriv c a) b) s -> lang (RSeq a b) (c :: s)).
    { intros s' L. inversion L; subst. rewrite app_comm_cons. constructor; [apply IHa|]; assumption. }
    assert (S2 : lang (RSeq a b) (c :: s) -> lang (RSeq (deriv c a) b) s \/ (lang a [] /\ lang (deriv c b) s)).
    { intros L. inversion L as [| |? ? x y A B E E'| | | |]; subst. destruct x as [|d x].
      - cbn in E'. subst y. right. split; [exact A|apply IHb, B].
      - cbn in E'. injection E' as -> <-. left. constructor; [apply IHa, A|exact B]. }
    destruct (nullable a) eqn:N.
    + split; intros L.
      * inversion L; subst; [auto|]. apply (l_seq a b [] (c :: s)); [apply nullable_lang, N|apply IHb; assumption].
      * destruct (S2 L) as [A|[_ B]]; [apply l_alt1|apply l_alt2]; assumption.
    + split; [auto|]. intros L. destruct (S2 L) as [A|[A _]]; [exact A|]. apply nullable_lang in A. congruence.
  - split; intros L; inversion L; subst; [apply l_alt1, IHa|apply l_alt2, IHb|apply l_alt1, IHa|apply l_alt2, IHb]; assumption.
  - split; intros L.
    + inversion L; subst. rewrite app_comm_cons. constructor; [apply IHa|]; assumption.
    + remember (RStar a) as r eqn:R. remember (c :: s) as w eqn:W. revert s W.
      induction L as [| | | | | |a' x y A _ B IH]; intros s' W; try discriminate. injection R as ->.
      destruct x as [|d x].
      * apply IH; auto.
      * cbn in W. injection W as -> <-. constructor; [apply IHa, A|exact B].
Qed.

Lemma rmatch_lang s : forall r, rmatch r s = true <-> lang r s.
Proof. induction s as [|c s IH]; intros r; cbn; [apply nullable_lang|]. rewrite IH. apply deriv_lang. Qed.
