(** C32: the Variant builder inverts emitting. *)
From Verif Require Import Base Float FloatProofs Value Emit Convert Builder ParserInput JSONEmitter P_JSONRound.
From Coq Require Import SpecFloat.
Open Scope N_scope.

(** ** Specification: a format that hands each emitted event to the builder unchanged *)
Definition relay (e : eev) : bev :=
  match e with
  | EvBeginDoc => BBeginDoc | EvEndDoc => BEndDoc
  | EvBeginMap _ => BBeginMap | EvEndMap => BEndMap
  | EvBeginList _ => BBeginList | EvEndList => BEndList
  | EvNull => BScalar VNull | EvTrue => BScalar (VBool true) | EvFalse => BScalar (VBool false)
  | EvStr s => BScalar (VStr s) | EvInt z => BScalar (VInt z) | EvUns n => BScalar (VUns n)
  | EvFlt d => BScalar (VFlt (ld_of_d d)) | EvBlob b => BScalar (VBlob b)
  end.

(** ** Proofs *)

Lemma builds_app b a c : builds b (a ++ c) = do b1 <- builds b a; builds b1 c.
Proof. revert b. induction a as [|e a IH]; intros b; [reflexivity|]. cbn [app builds]. destruct (build b e); cbn [rbind]; auto. Qed.

Lemma build_scalar b v : b_acts b <> [] -> build b (BScalar v) = set_value v b.
Proof. unfold build. destruct (b_acts b); congruence. Qed.

Lemma builds_value v : vok v -> faithful v -> forall b, b_acts b <> [] -> builds b (List.map relay (emit_value v)) = set_value v b.
Proof.
  assert (one : forall b x, b_acts b <> [] -> builds b [BScalar x] = set_value x b).
  { intros b x H. cbn [builds]. rewrite build_scalar by exact H. destruct (set_value x b); reflexivity. }
  induction v as [|c|z|n|x|s|l IH|m IH|c] using value_ind'; intros V F b H; cbn [emit_value List.map relay].
  - apply one, H.
  - destruct c; apply one, H.
  - apply one, H.
  - apply one, H.
  - destruct F as (y & Vy & _ & ->). rewrite d_of_ld_of_d by exact Vy. apply one, H.
  - rewrite c_str_id by exact F. apply one, H.
  - cbn [builds]. apply vok_list in V. apply faithful_list in F.
    assert (L : forall done, builds (BState (AList done :: b_acts b) (b_result b) (b_done b)) (List.map relay (flat_map emit_value l))
              = Ok (BState (AList (done ++ l) :: b_acts b) (b_result b) (b_done b))).
    { revert V F. induction IH as [|x l Hx _ IHl]; intros V F done; cbn [flat_map List.map builds]; [now rewrite app_nil_r|].
      inversion V; inversion F; subst. rewrite map_app, builds_app, Hx by (auto; discriminate).
      cbn [set_value b_acts b_result b_done rbind]. unfold set_value. cbn [b_acts b_result b_done rbind]. rewrite IHl by assumption. now rewrite <- app_assoc. }
    unfold build at 1. destruct (b_acts b) as [|a t] eqn:Ea; [congruence|]. cbn [rbind].
    rewrite map_app, builds_app, L. cbn [rbind app List.map relay builds]. unfold build, finish. cbn [b_acts b_result b_done].
    rewrite <- Ea. destruct b as [ac r dn]. cbn [b_acts b_result b_done]. destruct (set_value _ _); reflexivity.
  - cbn [builds]. apply vok_map in V as [S V]. apply faithful_map in F.
    assert (L : forall done k0, (forall k k', In k (mkeys done) -> In k' (mkeys m) -> bcmp k k' = Lt) -> exists k1,
        builds (BState (AMap true k0 done :: b_acts b) (b_result b) (b_done b))
               (List.map relay (flat_map (fun kv => EvStr (c_str (fst kv)) :: emit_value (snd kv)) m))
              = Ok (BState (AMap true k1 (done ++ m) :: b_acts b) (b_result b) (b_done b))).
    { revert S V F. induction IH as [|[k x] m Hx _ IHm]; intros S V F done k0 D; cbn [flat_map List.map builds fst snd app].
      - exists k0. now rewrite app_nil_r.
      - inversion V as [|? ? V1 V2]; inversion F as [|? ? [F0 F1] F2]; subst. cbn [fst snd] in *. destruct S as [S1 S2].
        rewrite (c_str_id k F0). cbn [relay]. unfold build at 1. cbn [b_acts]. unfold set_value at 1. cbn [b_acts as_string rbind b_result b_done].
        rewrite map_app, builds_app, Hx by (auto; discriminate).
        unfold set_value. cbn [b_acts b_result b_done rbind].
        rewrite mset_last by (intros k' K; apply D; [exact K|left; reflexivity]).
        destruct (IHm S2 V2 F2 (done ++ [(k, x)]) k) as (k1 & E).
        + intros a c Ka Kc. unfold mkeys in Ka. rewrite map_app, in_app_iff in Ka. destruct Ka as [Ka|[<-|[]]].
          * apply D; [exact Ka|right; exact Kc].
          * apply S1, Kc.
        + exists k1. rewrite E. now rewrite <- app_assoc. }
    destruct (L [] []) as (k1 & E); [intros ? ? K; destruct K|].
    unfold build at 1. destruct (b_acts b) as [|a t] eqn:Ea; [congruence|]. cbn [rbind].
    rewrite map_app, builds_app, E. cbn [rbind app List.map relay builds]. unfold build, finish. cbn [b_acts b_result b_done].
    rewrite <- Ea. destruct b as [ac r dn]. cbn [b_acts b_result b_done]. destruct (set_value _ _); reflexivity.
  - apply one, H.
Qed.

(** ** C32 *)

(** The events of any Variant, scalar or container, with or without the document marks,
    rebuild exactly that Variant, and the builder is then done.  Missing for the full
    claim: strings with NUL and floats that are not doubles, which the emitter interface
    itself cuts short (refuted below). *)
Theorem C32_builder_inverts_partial : forall v : value, vok v -> faithful v ->
  exists b, builds b_new (List.map relay (EvBeginDoc :: emit_value v ++ [EvEndDoc])) = Ok b /\
    b_result b = v /\ b_done b = true /\ b_acts b = [].
Proof.
  intros v V F. exists (BState [] v true). split; [|auto]. cbn [List.map relay]. rewrite map_app. cbn [builds build b_new b_acts rbind b_result b_done].
  rewrite builds_app, builds_value by (auto; discriminate). unfold set_value. cbn [b_acts rbind b_result b_done List.map relay]. reflexivity.
Qed.
Print Assumptions C32_builder_inverts_partial.

Theorem C32_builder_inverts_bare_partial : forall v : value, vok v -> faithful v ->
  exists b, builds b_new (List.map relay (emit_value v)) = Ok b /\ b_result b = v /\ b_done b = true /\ b_acts b = [].
Proof.
  intros v V F. exists (BState [] v true). split; [|auto]. rewrite builds_value by (auto; discriminate). reflexivity.
Qed.
Print Assumptions C32_builder_inverts_bare_partial.

Example C32_case : vok round_value /\ faithful round_value /\
  builds b_new (List.map relay (EvBeginDoc :: emit_value round_value ++ [EvEndDoc])) = Ok (BState [] round_value true).
Proof. split; [apply C01_case|]. split; [apply C01_case|]. vm_compute. reflexivity. Qed.

Theorem C32_nul_refuted : exists v b, vok v /\ builds b_new (List.map relay (emit_value v)) = Ok b /\ b_result b <> v.
Proof.
  exists (VStr [ "a"; bchr 0; "b"]%char), (BState [] (VStr [ "a"%char]) true). split; [exact I|]. split; [reflexivity|]. discriminate.
Qed.
Print Assumptions C32_nul_refuted.

Theorem C32_long_double_refuted : exists v b, vok v /\ builds b_new (List.map relay (emit_value v)) = Ok b /\ b_result b <> v.
Proof.
  exists (VFlt (S754_finite false 9223372036854775816 (-63))), (BState [] (VFlt (S754_finite false 9223372036854775808 (-63))) true).
  split; [reflexivity|]. split; [vm_compute; reflexivity|]. discriminate.
Qed.
Print Assumptions C32_long_double_refuted.
