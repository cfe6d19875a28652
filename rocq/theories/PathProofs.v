From Verif Require Import Base CNum Path.
Open Scope N_scope.

Lemma parse_loop_app s t1 t2 : parse_loop s (t1 ++ t2) = do s' <- parse_loop s t1; parse_loop s' t2.
Proof.
  revert s. induction t1 as [|c t1 IH]; intros s; [reflexivity|].
  cbn [parse_loop app]. destruct (parse_step s c); cbn [rbind]; try reflexivity. apply IH.
Qed.

Lemma parse_escape out frag c :
  parse_loop (PState out frag false false true) (escape_char c) = Ok (PState out (frag ++ [c]) false false true).
Proof.
  unfold escape_char.
  repeat (match goal with |- context [aeqb c ?k] =>
    let E := fresh in destruct (aeqb c k) eqn:E;
    [apply aeqb_eq in E; subst c; cbn; reflexivity|] end).
  cbn. rewrite H, H0, H2. reflexivity.
Qed.

Lemma parse_key_chars k : forall out frag,
  parse_loop (PState out frag false false true) (flat_map escape_char k)
  = Ok (PState out (frag ++ k) false false true).
Proof.
  induction k as [|c k IH]; intros out frag; cbn [flat_map].
  - rewrite app_nil_r. reflexivity.
  - rewrite parse_loop_app, parse_escape. cbn [rbind]. rewrite IH, <- app_assoc. reflexivity.
Qed.

Lemma parse_index_digits ds : forall out frag,
  forallb is_digit ds = true ->
  parse_loop (PState out frag false true false) ds = Ok (PState out (frag ++ ds) false true false).
Proof.
  induction ds as [|d ds IH]; intros out frag H; cbn [parse_loop].
  - rewrite app_nil_r. reflexivity.
  - cbn [forallb] in H. apply andb_true_iff in H as [H1 H2].
    destruct (digit_not_special d H1) as (_ & _ & _ & Hb & _).
    cbn [parse_step]. rewrite Hb. cbn [rbind]. rewrite IH by assumption.
    rewrite <- app_assoc. reflexivity.
Qed.

Lemma parse_index_elem i out : i < 2^32 ->
  parse_loop (PState out [] false true false) (dec_of_N i ++ ["]"%char])
  = Ok (PState (out ++ [PIdx i]) [] false false false).
Proof.
  intros Hi. destruct (dec_of_N_spec i) as (_ & Hd & _ & _).
  rewrite parse_loop_app, parse_index_digits by assumption. cbn [rbind app].
  cbn [parse_loop parse_step]. rewrite aeqb_refl.
  rewrite istream_ull_dec by lia. cbn [rbind]. unfold wrap32.
  rewrite N.mod_small by lia. reflexivity.
Qed.

(** State after having parsed the text of the elements [p] (at least one). *)
Definition after (out : path) (e : pelem) : pstate :=
  match e with
  | PKey k => PState out k false false true
  | PIdx i => PState (out ++ [PIdx i]) [] false false false
  end.

Lemma parse_elem_start e out : elem_ok e ->
  parse_loop (PState out [] false false false) (elem_string e) = Ok (after out e).
Proof.
  destruct e as [k|i]; intros H; cbn [elem_string].
  - cbn [parse_loop parse_step aeqb]. change (aeqb "/" "/") with true. cbn [rbind].
    rewrite parse_key_chars. reflexivity.
  - cbn [parse_loop parse_step]. change (aeqb "[" "/") with false. change (aeqb "[" "[") with true.
    cbn [rbind]. apply parse_index_elem, H.
Qed.

Lemma parse_elem_next e0 e out : elem_ok e ->
  parse_loop (after out e0) (elem_string e) = Ok (after (out ++ [e0]) e).
Proof.
  destruct e0 as [k0|i0]; intros H.
  - destruct e as [k|i]; cbn [elem_string after].
    + cbn [parse_loop parse_step]. change (aeqb "/" "/") with true. cbn [rbind].
      apply parse_key_chars.
    + cbn [parse_loop parse_step]. change (aeqb "[" "/") with false. change (aeqb "[" "[") with true.
      cbn [rbind]. apply parse_index_elem, H.
  - cbn [after]. apply parse_elem_start, H.
Qed.

Lemma parse_elems p : forall e0 out, Forall elem_ok p ->
  parse_loop (after out e0) (flat_map elem_string p)
  = Ok (after (out ++ removelast (e0 :: p)) (last (e0 :: p) e0)).
Proof.
  induction p as [|e p IH]; intros e0 out H.
  - cbn. rewrite app_nil_r. reflexivity.
  - inversion H as [|? ? He Hp]; subst. cbn [flat_map].
    rewrite parse_loop_app, parse_elem_next by assumption. cbn [rbind].
    rewrite IH by assumption. rewrite <- app_assoc. f_equal. f_equal.
    cbn [last]. destruct p as [|e1 p]; [reflexivity|].
    clear. revert e1 e e0. induction p as [|e2 p IHp]; intros; [reflexivity|]. cbn [last] in *. apply IHp.
Qed.

Lemma path_roundtrip_lemma p : Forall elem_ok p -> last p (PIdx 0) <> PKey [] ->
  parse_path (path_string p) = Ok p.
Proof.
  intros H Hl. destruct p as [|e p]; [reflexivity|].
  unfold parse_path, parse_path_into, path_string. cbn [flat_map].
  inversion H as [|? ? He Hp]; subst.
  rewrite parse_loop_app, parse_elem_start by assumption. cbn [rbind].
  rewrite parse_elems by assumption. cbn [rbind app]. f_equal.
  assert (E : last (e :: p) e = last (e :: p) (PIdx 0)).
  { clear. revert e. assert (G : forall (q : path) e d d', last (e :: q) d = last (e :: q) d').
    { induction q as [|x q IHq]; intros; [reflexivity|]. cbn [last] in *. apply IHq. }
    intros e. apply G. }
  rewrite E. clear E.
  pose proof (@app_removelast_last pelem (e :: p) (PIdx 0) ltac:(congruence)) as R.
  set (l := last (e :: p) (PIdx 0)) in *. set (rl := removelast (e :: p)) in *.
  rewrite R. destruct l as [k|i]; cbn [after ps_frag ps_out].
  - destruct k; [congruence|reflexivity].
  - reflexivity.
Qed.

(** Parsing never reaches undefined behaviour, and fails only by the documented
    "not a number" exception. *)
Lemma parse_loop_total t : forall s, (exists s', parse_loop s t = Ok s') \/ parse_loop s t = Throw RuntimeError.
Proof.
  induction t as [|c t IH]; intros s; [left; eexists; reflexivity|]. cbn [parse_loop].
  destruct s as [out frag esc idx key]. unfold parse_step.
  destruct esc; [apply IH|]. destruct idx; [destruct (aeqb c "]"); [destruct (istream_ull frag); [apply IH|right; reflexivity]|apply IH]|].
  destruct key; repeat match goal with |- context [if ?b then _ else _] => destruct b end; apply IH.
Qed.

Lemma parse_path_total t : (exists p, parse_path t = Ok p) \/ parse_path t = Throw RuntimeError.
Proof.
  unfold parse_path, parse_path_into.
  destruct (parse_loop_total t (PState [] [] false false false)) as [[s' H]|H]; rewrite H; [left; eexists; reflexivity|right; reflexivity].
Qed.

(** Every parsed index is a 32-bit number. *)
Lemma parse_loop_ok t : forall s s', Forall elem_ok (ps_out s) -> parse_loop s t = Ok s' -> Forall elem_ok (ps_out s').
Proof.
  induction t as [|c t IH]; intros s s' Hs H; cbn [parse_loop] in H.
  - injection H as <-. exact Hs.
  - destruct (parse_step s c) as [s1| | | |] eqn:E; try discriminate. cbn [rbind] in H.
    apply (IH s1); [|exact H]. clear H IH.
    destruct s as [out frag esc idx key]. unfold parse_step in E. cbn [ps_out] in Hs.
    repeat match type of E with
    | context [if ?b then _ else _] => destruct b
    | context [match istream_ull frag with _ => _ end] => destruct (istream_ull frag)
    end; try discriminate; injection E as <-; cbn [ps_out]; auto;
    apply Forall_app; split; auto; repeat constructor; cbn; unfold wrap32; apply N.mod_lt; lia.
Qed.

Lemma parse_path_ok t p : parse_path t = Ok p -> Forall elem_ok p.
Proof.
  unfold parse_path, parse_path_into. intros H.
  destruct (parse_loop _ t) as [s'| | | |] eqn:E; try discriminate. cbn [rbind] in H.
  pose proof (parse_loop_ok t (PState [] [] false false false) s' (Forall_nil _) E) as K.
  injection H as <-. destruct (ps_frag s'); [exact K|].
  apply Forall_app; split; [exact K|repeat constructor].
Qed.
