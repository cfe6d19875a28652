(** The text of a Variant is a sentence of the JSON grammar (proof device). *)
From Verif Require Import Base CNum Float FloatText FloatTextProofs FloatProofs Value Emit Base64 Base64Spec Base64Proofs ParserInput ParserInputProofs
  JSONEmitter JsonText JsonTextProofs JsonGrammar.
From Coq Require Import SpecFloat.
Open Scope N_scope.

(** ** The tree a Variant is written as *)

Definition flt_tree (q : Z) (x : spec_float) : jtree :=
  let q := Z.max q 1 in
  match x with
  | S754_zero s => TDec s 0 (- (q - 1))
  | S754_finite s m e =>
      let '(D, X) := sci_digits q (if 0 <=? e then Zpos m * 2 ^ e else Zpos m)%Z (if 0 <=? e then 1 else 2 ^ (- e))%Z in
      TDec s (Z.to_N D) (X - q + 1)
  | _ => TNul
  end.

Fixpoint vtree (q : Z) (v : value) : jtree :=
  match v with
  | VNull => TNul
  | VBool b => TBool b
  | VInt z => TInt (z <? 0)%Z (Z.abs_N z)
  | VUns n => TInt false n
  | VFlt x => flt_tree q (d_of_ld x)
  | VStr s => TStr (c_str s)
  | VBlob b => TStr (bchr 0 :: s2b "BLOB" ++ rfc4648 (List.concat b))
  | VList l => TArr (List.map (vtree q) l)
  | VMap m => TObj (List.map (fun kv => (c_str (fst kv), vtree q (snd kv))) m)
  end.

(** ** Whitespace *)

Lemma nl_ws p d : wsp (nl p d).
Proof.
  unfold nl, wsp. destruct (j_pretty p); [|reflexivity]. cbn [forallb]. apply andb_true_iff. split; [reflexivity|].
  apply forallb_repeat. reflexivity.
Qed.

(** ** Numbers *)

Lemma dec_int_part n : int_part (dec_of_N n).
Proof.
  destruct (dec_of_N_spec n) as (Hv & Hd & Hne & Hz). destruct (dec_of_N n) as [|c ds]; [congruence|].
  cbn [forallb] in Hd. apply andb_true_iff in Hd as [Hc Hd].
  destruct (ascii_dec c "0") as [->|N].
  - destruct (Hz _ _ eq_refl eq_refl) as [_ ->]. left. reflexivity.
  - right. exists c, ds. auto.
Qed.

Lemma num_dec_N f ze n : numg f ze (dec_of_N n) (TInt false n).
Proof.
  rewrite <- (proj1 (dec_of_N_spec n)) at 2. apply (NumInt f ze false). apply dec_int_part.
Qed.
Lemma num_dec_Z f ze z : numg f ze (dec_of_Z z) (TInt (z <? 0)%Z (Z.abs_N z)).
Proof.
  unfold dec_of_Z. destruct (z <? 0)%Z eqn:E.
  - replace (Z.abs_N z) with (Z.to_N (- z)) by lia. rewrite <- (proj1 (dec_of_N_spec (Z.to_N (- z)))) at 2.
    apply (NumInt f ze true). apply dec_int_part.
  - replace (Z.abs_N z) with (Z.to_N z) by lia. apply num_dec_N.
Qed.

Definition ends_with_point (t : bytes) : Prop := exists u, t = u ++ ["."%char].

Lemma exp_text_part X : exists sg ds, exp_text X = "e"%char :: sg ++ ds /\ exp_part "e" sg ds /\ exp_value sg ds = X.
Proof.
  unfold exp_text. destruct (dec_of_N_spec (Z.to_N (Z.abs X))) as (Hv & Hd & Hne & _).
  set (d := dec_of_N (Z.to_N (Z.abs X))) in *.
  assert (V : Z.of_N (dec_value (if Z.abs X <? 10 then "0"%char :: d else d)%Z) = Z.abs X).
  { destruct (Z.abs X <? 10)%Z; [rewrite dec_value_cons|]; rewrite Hv; change (digit_val "0") with 0%N; lia. }
  assert (Dg : digits (if Z.abs X <? 10 then "0"%char :: d else d)%Z).
  { unfold digits. destruct (Z.abs X <? 10)%Z; [cbn|]; exact Hd. }
  assert (Ne : (if Z.abs X <? 10 then "0"%char :: d else d)%Z <> []) by (destruct (Z.abs X <? 10)%Z; congruence).
  destruct (X <? 0)%Z eqn:E.
  - exists ["-"%char], (if Z.abs X <? 10 then "0"%char :: d else d)%Z. split; [reflexivity|].
    split; [repeat split; auto|]. unfold exp_value. change (beqb ["-"%char] (s2b "-")) with true. cbv iota. rewrite V. lia.
  - exists ["+"%char], (if Z.abs X <? 10 then "0"%char :: d else d)%Z. split; [reflexivity|].
    split; [repeat split; auto|]. unfold exp_value. change (beqb ["+"%char] (s2b "-")) with false. cbv iota. rewrite V. lia.
Qed.

Lemma sci_bounds q m e D X : (1 <= q)%Z ->
  sci_digits q (if 0 <=? e then Zpos m * 2 ^ e else Zpos m)%Z (if 0 <=? e then 1 else 2 ^ (- e))%Z = (D, X) ->
  (10 ^ (q - 1) <= D < 10 ^ q)%Z.
Proof.
  intros Hq E. eapply sci_digits_spec; [exact Hq| | |exact E].
  - destruct (0 <=? e)%Z eqn:C; [|lia]. pose proof (Z.pow_pos_nonneg 2 e ltac:(lia) ltac:(lia)). lia.
  - destruct (0 <=? e)%Z eqn:C; [lia|]. apply Z.pow_pos_nonneg; lia.
Qed.

(** A finite double is written as a number; RFC 8259 minds a final point. *)
Lemma flt_num (f : bytes -> Prop) ze q x : f_finite x = true ->
  (forall fp, fp <> [] -> f fp) -> (f [] \/ ~ ends_with_point (print_g q x)) ->
  (f [] \/ forall X, (Z.max q 1 = 1)%Z -> ~ exists t, print_g q x = t ++ exp_text X) ->
  numg f ze (print_g q x) (flt_tree q x).
Proof.
  intros F H1 H2 H3. unfold print_g, flt_tree in *. set (q' := Z.max q 1) in *. assert (Q : (1 <= q')%Z) by lia.
  destruct x as [s|s| |s m e]; try discriminate.
  - set (fp := repeat "0"%char (Z.to_nat (q' - 1))) in *.
    replace (if s then ["-"%char] else []) with (minus s) in * by (destruct s; reflexivity).
    assert (K : dec_value (s2b "0" ++ fp) = 0).
    { change (s2b "0" ++ fp) with (repeat "0"%char (S (Z.to_nat (q' - 1)))). rewrite <- (app_nil_r (repeat _ _)).
      rewrite dec_value_app_zeros. reflexivity. }
    assert (L : (- Z.of_nat (List.length fp) = - (q' - 1))%Z) by (unfold fp; rewrite repeat_length; lia).
    replace (TDec s 0 (- (q' - 1))) with (TDec s (dec_value (s2b "0" ++ fp)) (- Z.of_nat (List.length fp))) by congruence.
    apply (NumFrac f ze s (s2b "0") fp).
    + left. reflexivity.
    + apply forallb_repeat. reflexivity.
    + clearbody fp. destruct fp as [|c t]; [|apply H1; discriminate]. destruct H2 as [H2|H2]; [exact H2|].
      exfalso. apply H2. exists (minus s ++ ["0"%char]). rewrite <- app_assoc. reflexivity.
  - destruct (sci_digits q' _ _) as [D X] eqn:E. pose proof (sci_bounds _ _ _ _ _ Q E) as B.
    destruct (layout_shape q' D X Q B) as (ip & fp & rest & Lt & Hi & Ne & Hf & Hr & Hfp & Hz & Hv & He).
    replace (if s then ["-"%char] else []) with (minus s) in * by (destruct s; reflexivity).
    rewrite Lt in *. rewrite <- Hv.
    assert (Ip : int_part ip).
    { destruct ip as [|c t]; [congruence|]. cbn [forallb] in Hi. apply andb_true_iff in Hi as [Hc Ht].
      destruct (ascii_dec c "0") as [->|N].
      - rewrite (Hz _ _ eq_refl eq_refl). left. reflexivity.
      - right. exists c, t. auto. }
    destruct Hr as [->| ->].
    + cbn [read_exp] in He. rewrite app_nil_r in *. replace (X - q' + 1)%Z with (- Z.of_nat (List.length fp))%Z by lia.
      apply NumFrac; [exact Ip|exact Hf|]. destruct fp as [|c fp]; [|apply H1; discriminate].
      destruct H2 as [H2|H2]; [exact H2|]. exfalso. apply H2. exists (minus s ++ ip). rewrite <- app_assoc. reflexivity.
    + rewrite read_exp_text in He. destruct (exp_text_part X) as (sg & ds & Ee & Pe & Ve).
      assert (Ff : f fp).
      { destruct fp as [|c fp]; [|apply H1; discriminate]. destruct H3 as [H3|H3]; [exact H3|].
        cbn [List.length] in He. exfalso. apply (H3 X); [lia|].
        exists (minus s ++ ip ++ ["."%char]). cbn [app]. rewrite <- !app_assoc. reflexivity. }
      rewrite Ee. replace (X - q' + 1)%Z with (exp_value sg ds - Z.of_nat (List.length fp))%Z by lia.
      apply NumFracExp; auto.
Qed.

(** ** Strings *)

Lemma hex_chr_val n : n < 16 -> hexval (hex_chr n) = Some n.
Proof.
  intros H. unfold hex_chr, hexval. destruct (N.ltb_spec n 10).
  - rewrite bval_bchr by lia. rewrite (proj2 (N.leb_le 48 _)), (proj2 (N.leb_le _ 57)) by lia. cbn [andb]. f_equal. lia.
  - rewrite bval_bchr by lia. rewrite (proj2 (N.leb_gt _ 57)) by lia. rewrite andb_false_r, (proj2 (N.leb_gt _ 70)) by lia.
    rewrite andb_false_r, (proj2 (N.leb_le 97 _)), (proj2 (N.leb_le _ 102)) by lia. cbn [andb]. f_equal. lia.
Qed.

(** The escape of one byte below 128. *)
Lemma esc_low (plain : bytes -> Prop) c : bval c < 128 -> (32 <= bval c -> bval c <> 34 -> bval c <> 92 -> plain [c]) ->
  chars plain (esc_char c) [c].
Proof.
  intros L P. unfold esc_char.
  assert (short : forall k x, short_escape k = Some x -> c = bchr x -> chars plain ["\"%char; k] [c]).
  { intros k x E ->. apply (CShort plain k x [] []); [exact E|constructor]. }
  destruct (aeqb c "\") eqn:E1; [apply (short _ 92); [reflexivity|apply aeqb_eq, E1]|].
  destruct (aeqb c (bchr 34)) eqn:E2; [apply (short _ 34); [reflexivity|apply aeqb_eq, E2]|].
  destruct (aeqb c (bchr 8)) eqn:E3; [apply (short _ 8); [reflexivity|apply aeqb_eq, E3]|].
  destruct (aeqb c (bchr 12)) eqn:E4; [apply (short _ 12); [reflexivity|apply aeqb_eq, E4]|].
  destruct (aeqb c (bchr 10)) eqn:E5; [apply (short _ 10); [reflexivity|apply aeqb_eq, E5]|].
  destruct (aeqb c (bchr 13)) eqn:E6; [apply (short _ 13); [reflexivity|apply aeqb_eq, E6]|].
  destruct (aeqb c (bchr 9)) eqn:E7; [apply (short _ 9); [reflexivity|apply aeqb_eq, E7]|].
  assert (S : sval c = Z.of_N (bval c)) by (unfold sval; destruct (Z.ltb_spec (Z.of_N (bval c)) 128); lia).
  rewrite S. destruct (Z.ltb_spec (Z.of_N (bval c)) 0); [lia|]. destruct (Z.ltb_spec (Z.of_N (bval c)) 32).
  - unfold u_escape. set (n := bval c) in *.
    assert (Hh : hex4 (s2b "00" ++ [hex_chr (n / 16); hex_chr (n mod 16)]) n).
    { pose proof (N.div_mod n 16 ltac:(lia)). pose proof (N.mod_lt n 16 ltac:(lia)).
      assert (n / 16 < 16) by (apply N.div_lt_upper_bound; lia).
      replace n with (0 * 4096 + 0 * 256 + n / 16 * 16 + n mod 16) at 3 by lia.
      apply (Hex4 "0" "0" _ _ 0 0); try reflexivity; apply hex_chr_val; assumption. }
    assert (E : [c] = utf8 n ++ []).
    { unfold utf8. rewrite (proj2 (N.ltb_lt n 128)) by lia. unfold n. rewrite bchr_bval. reflexivity. }
    rewrite E. change (s2b "\u00" ++ [hex_chr (n / 16); hex_chr (n mod 16)])
      with ("\"%char :: "u"%char :: (s2b "00" ++ [hex_chr (n / 16); hex_chr (n mod 16)]) ++ []).
    apply (CUni plain _ n [] []); [exact Hh|left; lia|constructor].
  - apply (CPlain plain [c] [] []); [|constructor]. apply P; [lia| |].
    + intros K. apply (f_equal bchr) in K. rewrite bchr_bval in K. rewrite K in E2. discriminate.
    + intros K. apply (f_equal bchr) in K. rewrite bchr_bval in K. rewrite K in E1. discriminate.
Qed.

Lemma esc_high c : 128 <= bval c -> esc_char c = [c].
Proof.
  assert (S : forallb (fun c => implb (128 <=? bval c) (beqb (esc_char c) [c])) all_bytes = true) by (vm_compute; reflexivity).
  pose proof (sweep _ S c) as T. cbv beta in T. intros H. rewrite (proj2 (N.leb_le _ _) H) in T. apply beqb_eq, T.
Qed.

Lemma esc_bytes s : chars byte_plain (flat_map esc_char s) s.
Proof.
  induction s as [|c s IH]; [constructor|]. cbn [flat_map]. change (c :: s) with ([c] ++ s). apply chars_app; [|exact IH].
  destruct (N.lt_ge_cases (bval c) 128) as [L|G].
  - apply esc_low; [exact L|]. intros. exists c. auto.
  - rewrite esc_high by exact G. apply byte_chars. repeat constructor; lia.
Qed.

(** Strings in UTF-8. *)
Definition valid_utf8 (s : bytes) : Prop := exists cs, Forall scalar cs /\ s = flat_map utf8 cs.

Lemma utf8_high c : 128 <= c -> scalar c -> Forall (fun b => 128 <= bval b) (utf8 c).
Proof.
  intros H Hs. unfold utf8, scalar in *.
  assert (D : forall x, x mod 64 < 64) by (intros; apply N.mod_lt; lia).
  rewrite (proj2 (N.ltb_ge c 128)) by lia. destruct (N.ltb_spec c 2048); [|destruct (N.ltb_spec c 65536)].
  - pose proof (D c). assert (c / 64 < 32) by (apply N.div_lt_upper_bound; lia).
    repeat constructor; rewrite bval_bchr by lia; lia.
  - pose proof (D c). pose proof (D (c / 64)). assert (c / 4096 < 16) by (apply N.div_lt_upper_bound; lia).
    repeat constructor; rewrite bval_bchr by lia; lia.
  - pose proof (D c). pose proof (D (c / 64)). pose proof (D (c / 4096)).
    assert (c / 262144 < 5) by (apply N.div_lt_upper_bound; lia).
    repeat constructor; rewrite bval_bchr by lia; lia.
Qed.

Lemma esc_all_high u : Forall (fun b => 128 <= bval b) u -> flat_map esc_char u = u.
Proof. induction 1 as [|c u Hc _ IH]; [reflexivity|]. cbn [flat_map]. rewrite esc_high, IH by exact Hc. reflexivity. Qed.

Lemma esc_utf8 s : valid_utf8 s -> chars utf8_plain (flat_map esc_char s) s.
Proof.
  intros (cs & F & ->). induction F as [|c cs Hc _ IH]; [constructor|]. cbn [flat_map]. rewrite flat_map_app.
  apply chars_app; [|exact IH]. destruct (N.lt_ge_cases c 128) as [L|G].
  - unfold utf8. rewrite (proj2 (N.ltb_lt _ _) L). cbn [flat_map]. rewrite app_nil_r.
    apply esc_low; rewrite bval_bchr by lia; [exact L|]. intros. exists c. repeat split; auto.
    unfold utf8. rewrite (proj2 (N.ltb_lt _ _) L). reflexivity.
  - rewrite esc_all_high by (apply utf8_high; assumption). rewrite <- (app_nil_r (utf8 c)).
    apply CPlain; [|constructor]. exists c. repeat split; auto; lia.
Qed.

Lemma c_str_high u s : Forall (fun b => 128 <= bval b) u -> c_str (u ++ s) = u ++ c_str s.
Proof.
  induction 1 as [|c u Hc _ IH]; [reflexivity|]. cbn [app c_str].
  destruct (aeqb c (bchr 0)) eqn:E; [|rewrite IH; reflexivity]. apply aeqb_eq in E. subst c. rewrite bval_bchr in Hc; lia.
Qed.

Lemma c_str_utf8 s : valid_utf8 s -> valid_utf8 (c_str s).
Proof.
  intros (cs & F & ->). induction F as [|c cs Hc F (ds & Fd & IH)]; [exists []; auto|]. cbn [flat_map].
  destruct (N.lt_ge_cases c 128) as [L|G].
  - unfold utf8 at 1. rewrite (proj2 (N.ltb_lt _ _) L). cbn [app c_str]. destruct (aeqb (bchr c) (bchr 0)); [exists []; auto|].
    exists (c :: ds). split; [constructor; assumption|]. cbn [flat_map]. rewrite <- IH.
    unfold utf8 at 2. rewrite (proj2 (N.ltb_lt _ _) L). reflexivity.
  - rewrite c_str_high by (apply utf8_high; assumption). exists (c :: ds). split; [constructor; assumption|].
    cbn [flat_map]. rewrite <- IH. reflexivity.
Qed.

(** Base64 text needs no escapes. *)
Lemma b64_plain c : In c (alphabet ++ ["="%char]) -> 32 <= bval c < 128 /\ bval c <> 34 /\ bval c <> 92.
Proof.
  assert (S : forallb (fun c => (32 <=? bval c) && (bval c <? 128) && negb (bval c =? 34) && negb (bval c =? 92)) (alphabet ++ ["="%char]) = true)
    by (vm_compute; reflexivity).
  intros H. rewrite forallb_forall in S. specialize (S c H). lia.
Qed.

Lemma rfc4648_chars data c : In c (rfc4648 data) -> In c (alphabet ++ ["="%char]).
Proof.
  unfold rfc4648. rewrite in_app_iff, in_app_iff. intros [H|H].
  - apply in_map_iff in H as (l & <- & _). unfold alpha.
    destruct (Nat.lt_ge_cases (bits_value l) (List.length alphabet)) as [L|G].
    + left. apply nth_In, L.
    + right. left. rewrite nth_overflow by exact G. reflexivity.
  - right. unfold padding in H. destruct (Nat.modulo _ 3) as [|[|[|k]]]; cbn [In] in *; tauto.
Qed.

Lemma plain_all (plain : bytes -> Prop) u : (forall c, In c u -> plain [c]) -> chars plain u u.
Proof.
  induction u as [|c u IH]; intros H; [constructor|]. apply (CPlain plain [c] u u); [apply H; left; reflexivity|].
  apply IH. intros k K. apply H. right. exact K.
Qed.

(** ** Values *)

Lemma join_cons2 sep x y l : join sep (x :: y :: l) = x ++ sep ++ join sep (y :: l).
Proof. reflexivity. Qed.

Section Text.
  Variables (plain : bytes -> Prop) (f : bytes -> Prop) (ze : bool) (p : jparams).
  Hypothesis plain_ascii : forall c, 32 <= bval c < 128 -> bval c <> 34 -> bval c <> 92 -> plain [c].
  Notation num := (numg f ze).
  Notation q := (Z.of_N (j_prec p)).
  Notation jv := (jval wsp plain num).

  (** What the grammar asks of the leaves. *)
  Fixpoint leaves_ok (v : value) : Prop :=
    match v with
    | VFlt x => f_finite (d_of_ld x) = true -> num (print_g q (d_of_ld x)) (flt_tree q (d_of_ld x))
    | VStr s => chars plain (flat_map esc_char (c_str s)) (c_str s)
    | VList l => (fix go l := match l with [] => True | x :: t => leaves_ok x /\ go t end) l
    | VMap m => (fix go m := match m with [] => True
         | kv :: t => (chars plain (flat_map esc_char (c_str (fst kv))) (c_str (fst kv)) /\ leaves_ok (snd kv)) /\ go t end) m
    | _ => True
    end.

  Lemma elems_text d l w : wsp w -> l <> [] ->
    Forall (fun x => jv (vtext p (d + 1) x) (vtree q x)) l ->
    jelems wsp plain num (join (s2b ",") (List.map (fun x => nl p (d + 1) ++ vtext p (d + 1) x) l) ++ w) (List.map (vtree q) l).
  Proof using.
    clear plain_ascii. intros W. induction l as [|x l IH]; [congruence|]. intros _ F. inversion F as [|? ? Hx Hl]; subst.
    destruct l as [|y l].
    - cbn [List.map join]. rewrite <- app_assoc. apply JEOne; auto using nl_ws.
    - cbn [List.map] in *. rewrite join_cons2. rewrite <- !app_assoc.
      specialize (IH ltac:(discriminate) Hl).
      set (r := join (s2b ",") _) in *.
      apply (JECons _ _ _ (nl p (d + 1)) (vtext p (d + 1) x) [] _ (r ++ w)); auto using nl_ws. reflexivity.
  Qed.

  Lemma members_text d m w : wsp w -> m <> [] ->
    Forall (fun kv => chars plain (flat_map esc_char (c_str (fst kv))) (c_str (fst kv)) /\ jv (vtext p (d + 1) (snd kv)) (vtree q (snd kv))) m ->
    jmembers wsp plain num (join (s2b ",") (List.map (fun kv => nl p (d + 1) ++ str_text (c_str (fst kv)) ++ s2b ": " ++ vtext p (d + 1) (snd kv)) m) ++ w)
      (List.map (fun kv => (c_str (fst kv), vtree q (snd kv))) m).
  Proof using.
    clear plain_ascii. intros W. induction m as [|[k x] m IH]; [congruence|]. intros _ F. inversion F as [|? ? [Hk Hx] Hm]; subst.
    cbn [fst snd] in *.
    assert (Q : str_text (c_str k) = quoted (flat_map esc_char (c_str k))) by reflexivity.
    destruct m as [|y m].
    - cbn [List.map join fst snd]. rewrite Q, <- !app_assoc.
      apply (JMOne _ _ _ (nl p (d + 1)) _ _ [] [" "%char] (vtext p (d + 1) x) w); auto using nl_ws; reflexivity.
    - cbn [List.map fst snd] in *. rewrite join_cons2. rewrite Q, <- !app_assoc.
      specialize (IH ltac:(discriminate) Hm). set (r := join (s2b ",") _) in *.
      apply (JMCons _ _ _ (nl p (d + 1)) _ _ [] [" "%char] (vtext p (d + 1) x) [] _ (r ++ w)); auto using nl_ws; reflexivity.
  Qed.

  Lemma vtext_tree v : forall d, leaves_ok v -> jv (vtext p d v) (vtree q v).
  Proof using plain_ascii.
    induction v as [|b|z|n|x|s|l IH|m IH|b] using value_ind'; intros d K.
    - constructor.
    - destruct b; constructor.
    - apply JNum, num_dec_Z.
    - apply JNum, num_dec_N.
    - cbn [vtext vtree leaves_ok] in *. unfold flt_text. destruct (d_of_ld x) as [s|s| |s m e] eqn:E; cbn [f_nan f_inf orb].
      + apply JNum, K. reflexivity.
      + apply JNul.
      + apply JNul.
      + apply JNum, K. reflexivity.
    - apply JStr. exact K.
    - cbn [vtext vtree]. assert (A : Forall (fun x => jv (vtext p (d + 1) x) (vtree q x)) l).
      { revert K. induction IH as [|x l Hx _ IHl]; intros K; constructor; [apply Hx, K|apply IHl, K]. }
      destruct l as [|x l].
      + cbn [List.map join app]. apply JArr0, nl_ws.
      + rewrite (app_assoc (join _ _)). apply JArr. apply elems_text; [apply nl_ws|discriminate|exact A].
    - cbn [vtext vtree]. assert (A : Forall (fun kv => chars plain (flat_map esc_char (c_str (fst kv))) (c_str (fst kv)) /\ jv (vtext p (d + 1) (snd kv)) (vtree q (snd kv))) m).
      { revert K. induction IH as [|[k x] m Hx _ IHm]; intros K; constructor; [|apply IHm, K].
        split; [apply K|apply Hx, K]. }
      destruct m as [|x m].
      + cbn [List.map join app]. apply JObj0, nl_ws.
      + rewrite (app_assoc (join _ _)). apply JObj. apply members_text; [apply nl_ws|discriminate|exact A].
    - cbn [vtext vtree]. apply (JStr _ _ _ (s2b "\u0000BLOB" ++ rfc4648 (List.concat b))).
      apply (CUni plain (s2b "0000") 0); [apply (Hex4 "0" "0" "0" "0" 0 0 0 0); reflexivity|left; lia|].
      apply plain_all. intros c. change (s2b "BLOB" ++ rfc4648 (List.concat b)) with (s2b "BLOB" ++ rfc4648 (List.concat b)).
      rewrite in_app_iff. intros H.
      assert (In c (alphabet ++ ["="%char])).
      { destruct H as [H|H]; [|eapply rfc4648_chars, H]. apply in_app_iff. left. revert H. cbn. intuition (subst; auto 70). }
      apply b64_plain in H0. apply plain_ascii; apply H0.
  Qed.
End Text.

(** Whatever the strings, the parser's grammar takes the text. *)
Lemma vtext_lib p v : lib_json (vtext p 0 v) (vtree (Z.of_N (j_prec p)) v).
Proof.
  exists [], (vtext p 0 v), []. rewrite app_nil_r. repeat split.
  apply vtext_tree; [intros c H1 H2 H3; exists c; repeat split; auto; lia|].
  induction v as [|b|z|n|x|s|l IH|m IH|b] using value_ind'; cbn [leaves_ok]; auto.
  - intros F. apply flt_num; auto.
  - apply esc_bytes.
  - induction IH; auto.
  - induction IH; auto using esc_bytes.
Qed.
