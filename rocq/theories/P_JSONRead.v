(** C38 (unicode escapes) and C40 (the language accepted by the JSON parser). *)
From Verif Require Import Base CNum Float FloatText Value Convert Builder ParserInput ParserInputProofs GuessFormat P_GuessFormat
  JSONParserC JSONCore JSONDriver JSONFlat Deserialize P_JSONInput JsonGrammar JsonMeaning JSONAccept JSONRead JSONSound.
Open Scope N_scope.

(** ** Proofs *)

Lemma tmems_denotes m : Forall (fun kv => plain_tree (snd kv) -> exists v, tval (snd kv) = Ok v /\ denotes (snd kv) v) m ->
  Forall (fun kv => plain_tree (snd kv)) m -> forall acc, msorted acc ->
  exists ms, tmems m acc = Ok ms /\ msorted ms /\
    (forall k t, last_val k m = Some t -> exists v, mget k ms = Some v /\ denotes t v) /\
    (forall k, last_val k m = None -> mget k ms = mget k acc).
Proof.
  induction 1 as [|[k x] m Hx _ IH]; intros P acc S; cbn [tmems].
  - exists acc. repeat split; auto. discriminate.
  - inversion P as [|? ? Px Pm]; subst. cbn [snd] in *. destruct (Hx Px) as (v & Ev & Dv). rewrite Ev. cbn [rbind].
    destruct (IH Pm (mset k v acc) (msorted_mset k v acc S)) as (ms & E & Sm & H1 & H2). exists ms.
    split; [exact E|]. split; [exact Sm|]. split.
    + intros k' t. cbn [last_val]. destruct (last_val k' m) as [t'|] eqn:L.
      * intros [= <-]. auto.
      * destruct (beqb k' k) eqn:B; [|discriminate]. intros [= <-]. exists v. split; [|exact Dv].
        rewrite (H2 k' L), mget_mset by exact S. rewrite B. reflexivity.
    + intros k'. cbn [last_val]. destruct (last_val k' m) as [t'|] eqn:L; [discriminate|].
      destruct (beqb k' k) eqn:B; [discriminate|]. intros _. rewrite (H2 k' L), mget_mset, B by exact S. reflexivity.
Qed.

Lemma plain_arr l : plain_tree (TArr l) -> Forall plain_tree l.
Proof. induction l as [|x l IH]; intros H; constructor; [apply H|apply IH, H]. Qed.
Lemma plain_obj m : plain_tree (TObj m) -> Forall (fun kv => plain_tree (snd kv)) m.
Proof. induction m as [|[k x] l IH]; intros H; constructor; [apply H|apply IH, H]. Qed.

Lemma tval_denotes t : plain_tree t -> exists v, tval t = Ok v /\ denotes t v.
Proof.
  induction t as [| |s n| |s|l IH|m IH] using jtree_ind'; intros P.
  - eexists. split; [reflexivity|constructor].
  - eexists. split; [reflexivity|constructor].
  - destruct s; (eexists; split; [reflexivity|]); constructor; cbn [plain_tree int_val] in *; f_equal.
    + lia.
    + rewrite (proj2 (N.leb_gt _ _) P). reflexivity.
  - eexists. split; [reflexivity|constructor].
  - exists (VStr s). split; [|constructor]. cbn [tval]. unfold str_value.
    cbn [plain_tree] in P. apply beqb_neq in P. rewrite P. reflexivity.
  - rewrite tval_arr. apply plain_arr in P.
    assert (L : exists vs, tvals l = Ok vs /\ Forall2 denotes l vs).
    { revert P. induction IH as [|x l Hx _ IHl]; intros P; cbn [tvals].
      - eexists. split; [reflexivity|constructor].
      - inversion P; subst. destruct (Hx H1) as (v & -> & D). destruct (IHl H2) as (vs & -> & Ds).
        cbn [rbind]. eexists. split; [reflexivity|]. constructor; auto. }
    destruct L as (vs & -> & D). cbn [rbind]. eexists. split; [reflexivity|]. constructor. exact D.
  - rewrite tval_obj. apply plain_obj in P.
    destruct (tmems_denotes m IH P [] I) as (ms & -> & S & H1 & H2). cbn [rbind]. eexists. split; [reflexivity|].
    constructor; auto.
Qed.

(** ** C40: acceptance *)

(** Every JSON text with an array or object at the root is accepted, from memory or from
    a stream, and the Variant is what the text denotes.  Missing for the full claim:
    numbers of the form 0e..., integers beyond 64 bits, strings that begin with the
    mark of a blob, and the rejection of other texts; see the refutations below. *)
Theorem C40_accepts_partial : forall (text : bytes) (t : jtree) (i : pinput) (fuel : nat),
  rfc_json_no0e text t -> root t -> plain_tree t ->
  ready i -> unread i = text -> (List.length text + 4 < fuel)%nat ->
  exists v, outcome (parse_json fuel i) = Ok v /\ denotes t v.
Proof.
  intros text t i fuel H R P Hi E Hf. destruct (tval_denotes t P) as (v & Ev & D).
  destruct (read_document text t v (no0e_lib _ _ H) R Ev) as (w & _ & F & _).
  exists v. split; [|exact D]. rewrite outcome_flat by (rewrite ?E; assumption). rewrite E, F. reflexivity.
Qed.
Print Assumptions C40_accepts_partial.

(** The same for what the parser accepts beyond RFC 8259: bytes that are not UTF-8 inside
    strings, and numbers such as "1.". *)
Theorem C40_accepts_lenient_partial : forall (text : bytes) (t : jtree) (i : pinput) (fuel : nat),
  lib_json text t -> root t -> plain_tree t ->
  ready i -> unread i = text -> (List.length text + 4 < fuel)%nat ->
  exists v, outcome (parse_json fuel i) = Ok v /\ denotes t v.
Proof.
  intros text t i fuel H R P Hi E Hf. destruct (tval_denotes t P) as (v & Ev & D).
  destruct (read_document text t v H R Ev) as (w & _ & F & _).
  exists v. split; [|exact D]. rewrite outcome_flat by (rewrite ?E; assumption). rewrite E, F. reflexivity.
Qed.
Print Assumptions C40_accepts_lenient_partial.

Ltac grammar :=
  repeat match goal with
  | |- wsp _ => reflexivity
  | |- digits _ => reflexivity
  | |- _ <> _ => discriminate
  | |- _ /\ _ => split
  end.

(** A text meeting the hypotheses. *)
Definition C40_text : bytes := s2b " {""k"" : [ 0.5, -12, ""a\u00e9\n"" , {} ],""k"":[true ]} ".
Example C40_accepts_example : exists t, rfc_json_no0e C40_text t /\ root t /\ plain_tree t /\
  outcome (parse_json 200 (InMem (MInput C40_text 0))) = Ok (VMap [(s2b "k", VList [VBool true])]).
Proof.
  exists (TObj [(s2b "k", TArr [TDec false 5 (-1); TInt true 12; TStr (s2b "a" ++ utf8 233 ++ [bchr 10]); TObj []]);
                (s2b "k", TArr [TBool true])]).
  split; [|split; [exact I|split; [|vm_compute; reflexivity]]].
  2: { cbn [plain_tree]. repeat split; try discriminate. }
  exists (s2b " "), (s2b "{""k"" : [ 0.5, -12, ""a\u00e9\n"" , {} ],""k"":[true ]}"), (s2b " ").
  split; [reflexivity|]. split; [reflexivity|]. split; [|reflexivity].
  assert (Pl : forall c : ascii, utf8_plain (utf8 (bval c)) -> forall t s, chars utf8_plain t s -> chars utf8_plain (utf8 (bval c) ++ t) (utf8 (bval c) ++ s))
    by (intros; apply CPlain; auto).
  assert (Pk : utf8_plain (utf8 107)) by (exists 107; unfold scalar; repeat split; lia).
  assert (Pa : utf8_plain (utf8 97)) by (exists 97; unfold scalar; repeat split; lia).
  assert (Ck : chars utf8_plain (s2b "k") (s2b "k")) by (apply (Pl "k"%char Pk [] []); constructor).
  apply (JObj _ _ _ (s2b """k"" : [ 0.5, -12, ""a\u00e9\n"" , {} ],""k"":[true ]")).
  eapply (JMCons _ _ _ [] (s2b "k") (s2b "k") (s2b " ") (s2b " ") (s2b "[ 0.5, -12, ""a\u00e9\n"" , {} ]") []); grammar; [exact Ck| |].
  - apply (JArr _ _ _ (s2b " 0.5, -12, ""a\u00e9\n"" , {} ")).
    apply (JECons _ _ _ (s2b " ") (s2b "0.5") [] _ (s2b " -12, ""a\u00e9\n"" , {} ")); grammar.
    { apply JNum. apply (NumFrac _ _ false (s2b "0") (s2b "5")); grammar. left. reflexivity. }
    apply (JECons _ _ _ (s2b " ") (s2b "-12") [] _ (s2b " ""a\u00e9\n"" , {} ")); grammar.
    { apply JNum. apply (NumInt _ _ true (s2b "12")). right. exists "1"%char, (s2b "2"). repeat split; discriminate. }
    apply (JECons _ _ _ (s2b " ") (quoted (s2b "a\u00e9\n")) (s2b " ") _ (s2b " {} ")); grammar.
    { apply JStr. apply (Pl "a"%char Pa (s2b "\u00e9\n") (utf8 233 ++ [bchr 10])).
      apply (CUni _ (s2b "00e9") 233 (s2b "\n") [bchr 10]).
      - apply (Hex4 "0" "0" "e" "9" 0 0 14 9); reflexivity.
      - left. reflexivity.
      - apply (CShort _ "n" 10 [] []); [reflexivity|constructor]. }
    apply (JEOne _ _ _ (s2b " ") (s2b "{}") (s2b " ")); grammar.
    apply (JObj0 _ _ _ []). reflexivity.
  - eapply (JMOne _ _ _ [] (s2b "k") (s2b "k") [] [] (s2b "[true ]") []); grammar; [exact Ck|].
    apply (JArr _ _ _ (s2b "true ")). apply (JEOne _ _ _ [] (s2b "true") (s2b " ")); grammar. constructor.
Qed.

(** ** C40: refutations *)

Lemma in_mem_ready text : llen text < 2^32 -> ready (InMem (MInput text 0)).
Proof. intros H. split; [|exact H]. cbn. lia. Qed.

(** "[0e1]" is JSON, and is rejected. *)
Theorem C40_zero_exponent_refuted : exists (text : bytes) (t : jtree), rfc_json text t /\ root t /\ plain_tree t /\
  forall fuel, (100 <= fuel)%nat -> outcome (parse_json fuel (InMem (MInput text 0))) = Throw RuntimeError.
Proof.
  exists (s2b "[0e1]"), (TArr [TDec false 0 1]). split; [|split; [exact I|split; [repeat split|]]].
  - exists [], (s2b "[0e1]"), []. grammar; [reflexivity|].
    apply (JArr _ _ _ (s2b "0e1")). apply (JEOne _ _ _ [] (s2b "0e1") []); grammar.
    apply JNum. apply (NumExp _ _ false (s2b "0") "e" [] (s2b "1")); [left; reflexivity| |reflexivity].
    split; [left; reflexivity|]. split; [left; reflexivity|]. split; [reflexivity|discriminate].
  - intros fuel Hf. rewrite outcome_flat; [vm_compute; reflexivity|apply in_mem_ready; reflexivity|cbn; lia].
Qed.
Print Assumptions C40_zero_exponent_refuted.

(** An integer beyond 64 bits is accepted as another integer. *)
Theorem C40_big_integer_refuted : exists (text : bytes) (t : jtree) (v : value), rfc_json_no0e text t /\ root t /\
  outcome (parse_json 100 (InMem (MInput text 0))) = Ok v /\ ~ denotes t v.
Proof.
  exists (s2b "[18446744073709551616]"), (TArr [TInt false (2^64)]), (VList [VUns (2^64 - 1)]).
  split; [|split; [exact I|split; [vm_compute; reflexivity|]]].
  - exists [], (s2b "[18446744073709551616]"), []. grammar; [reflexivity|].
    apply (JArr _ _ _ (s2b "18446744073709551616")). apply (JEOne _ _ _ [] (s2b "18446744073709551616") []); grammar.
    apply JNum. apply (NumInt _ _ false (s2b "18446744073709551616")).
    right. exists "1"%char, (s2b "8446744073709551616"). repeat split. discriminate.
  - intros D. inversion D as [| | | | |l vs F|]; subst. inversion F as [|? ? ? ? D1]; subst. inversion D1 as [| |? ? ? E| | | |]; subst.
    vm_compute in E. discriminate.
Qed.
Print Assumptions C40_big_integer_refuted.

(** A JSON string that begins with U+0000 and "BLOB" is not read as a string. *)
Theorem C40_tagged_string_refuted : exists (text : bytes) (t : jtree) (v : value), rfc_json_no0e text t /\ root t /\
  outcome (parse_json 100 (InMem (MInput text 0))) = Ok v /\ ~ denotes t v.
Proof.
  exists (s2b "[""\u0000BLOBAAAA""]"), (TArr [TStr (bchr 0 :: s2b "BLOBAAAA")]), (VList [VBlob [[bchr 0; bchr 0; bchr 0]]]).
  split; [|split; [exact I|split; [vm_compute; reflexivity|]]].
  - exists [], (s2b "[""\u0000BLOBAAAA""]"), []. grammar; [reflexivity|].
    apply (JArr _ _ _ (quoted (s2b "\u0000BLOBAAAA"))). rewrite <- (app_nil_r (quoted _)). apply (JEOne _ _ _ [] (quoted (s2b "\u0000BLOBAAAA")) []); grammar.
    apply JStr. apply (CUni _ (s2b "0000") 0 (s2b "BLOBAAAA") (s2b "BLOBAAAA")).
    + apply (Hex4 "0" "0" "0" "0" 0 0 0 0); reflexivity.
    + left. reflexivity.
    + assert (Pl : forall c, 32 <= bval c < 128 /\ bval c <> 34 /\ bval c <> 92 -> forall t s, chars utf8_plain t s -> chars utf8_plain (c :: t) (c :: s)).
      { intros c Hc t s K. apply (CPlain _ [c]); [|exact K]. exists (bval c). unfold scalar, utf8.
        rewrite (proj2 (N.ltb_lt _ _)) by lia. rewrite bchr_bval. repeat split; lia. }
      cbn [s2b list_ascii_of_string]. repeat (apply Pl; [vm_compute; repeat split; discriminate|]). constructor.
  - intros D. inversion D as [| | | | |l vs F|]; subst. inversion F as [|? ? ? ? D1]; subst. inversion D1 as [| |? ? ? E| | | |]; subst.
Qed.
Print Assumptions C40_tagged_string_refuted.

(** Text that is not JSON, nor JSON with comments, and is accepted: characters before
    the root that the parser rejects are ignored. *)
Lemma jval_head (w p : bytes -> Prop) (n : bytes -> jtree -> Prop) t v : (forall t v, n t v -> match t with c :: _ => is_digit c = true \/ c = "-"%char | [] => False end) ->
  jval w p n t v -> match t with c :: _ => aeqb c "x" = false | [] => False end.
Proof.
  intros Hn H. inversion H; subst; try reflexivity.
  specialize (Hn _ _ H0). destruct t as [|c t]; [exact Hn|]. destruct Hn as [D|D].
  - destruct (aeqb c "x") eqn:E; [|reflexivity]. apply aeqb_eq in E. subst. discriminate.
  - subst. reflexivity.
Qed.
Lemma rfc_num_head t v : rfc_num t v -> match t with c :: _ => is_digit c = true \/ c = "-"%char | [] => False end.
Proof.
  assert (I : forall neg ip r, int_part ip -> match minus neg ++ ip ++ r with c :: _ => is_digit c = true \/ c = "-"%char | [] => False end).
  { intros [] ip r Hi; [right; reflexivity|]. destruct Hi as [->|(c & ds & -> & Hc & _)]; left; [reflexivity|exact Hc]. }
  intros H. inversion H; subst; try (apply I; assumption). rewrite <- (app_nil_r ip). apply I. assumption.
Qed.

Theorem C40_rejects_refuted : exists (text : bytes) (v : value),
  outcome (parse_json 100 (InMem (MInput text 0))) = Ok v /\ (forall t, ~ commented_json text t).
Proof.
  exists (s2b "x{}"), (VMap []). split; [vm_compute; reflexivity|].
  intros t (w1 & b & w2 & E & W1 & V & _). apply (jval_head _ _ _ _ _ rfc_num_head) in V.
  destruct W1 as [|c w Hc _|c w _ _]; cbn in E.
  - destruct b as [|c b]; [exact V|]. injection E as <- _. discriminate.
  - injection E as <- _. discriminate.
  - discriminate.
Qed.
Print Assumptions C40_rejects_refuted.

(** What follows the root is not looked at. *)
Definition ends_x (t : bytes) : Prop := match rev t with c :: _ => c = "x"%char | [] => False end.
Lemma ends_x_app a b : ends_x (a ++ b) -> b <> [] -> ends_x b.
Proof.
  unfold ends_x. rewrite rev_app_distr. intros H N. destruct (rev b) as [|c r] eqn:E; [|exact H].
  apply (f_equal (@rev ascii)) in E. rewrite rev_involutive in E. cbn in E. congruence.
Qed.
Lemma ends_x_In t : ends_x t -> In "x"%char t.
Proof.
  unfold ends_x. intros H. apply in_rev. destruct (rev t) as [|c r]; [contradiction|]. subst. left. reflexivity.
Qed.

Lemma cwsp_end w : cwsp w -> ~ ends_x w.
Proof.
  induction 1 as [|c w Hc _ IH|t w _ _ IH]; intros E.
  - exact E.
  - destruct w as [|d w].
    + cbn in E. subst. discriminate.
    + apply IH. apply (ends_x_app [c]); [exact E|discriminate].
  - destruct w as [|d w].
    + apply (ends_x_app ("/"%char :: "*"%char :: t)) in E; [discriminate|discriminate].
    + apply IH. apply (ends_x_app ("/"%char :: "*"%char :: t ++ ["*"%char; "/"%char])); [|discriminate].
      cbn [app] in *. rewrite <- app_assoc. exact E.
Qed.

Lemma digits_no_x ds : digits ds -> ~ In "x"%char ds.
Proof. intros H K. unfold digits in H. rewrite forallb_forall in H. apply H in K. discriminate. Qed.

Lemma exp_no_x e sg ds : exp_part e sg ds -> ~ In "x"%char (e :: sg ++ ds).
Proof.
  intros (Ee & Es & Ed & _) K. apply digits_no_x in Ed. cbn [In] in K. rewrite in_app_iff in K.
  destruct K as [K|[K|K]]; [|destruct Es as [->|[->| ->]]; cbn in K; intuition discriminate|tauto].
  destruct Ee; congruence.
Qed.

Lemma rfc_num_no_x t v : rfc_num t v -> ~ In "x"%char t.
Proof.
  assert (M : forall neg, ~ In "x"%char (minus neg)) by (intros [] H; cbn in H; intuition discriminate).
  intros H K. inversion H as [neg ip Hi|neg ip fp Hi Hf _|neg ip e sg ds Hi He _|neg ip fp e sg ds Hi Hf _ He]; subst;
    destruct (int_digits ip Hi) as [Hd _]; pose proof (M neg); apply digits_no_x in Hd.
  - rewrite in_app_iff in K. tauto.
  - apply digits_no_x in Hf. rewrite !in_app_iff in K. cbn [In] in K. intuition discriminate.
  - apply exp_no_x in He. rewrite !in_app_iff in K. tauto.
  - apply digits_no_x in Hf. apply exp_no_x in He. rewrite !in_app_iff in K.
    change (In "x"%char ("."%char :: fp ++ e :: sg ++ ds)) with ("."%char = "x"%char \/ In "x"%char (fp ++ e :: sg ++ ds)) in K.
    rewrite in_app_iff in K. intuition discriminate.
Qed.

Lemma jval_end (w p : bytes -> Prop) t v : jval w p rfc_num t v -> ~ ends_x t.
Proof.
  assert (A : forall a c, ends_x (a ++ [c]) -> c = "x"%char) by (intros a c; unfold ends_x; rewrite rev_app_distr; auto).
  intros H E. inversion H; subst; try discriminate E.
  - apply ends_x_In in E. exact (rfc_num_no_x _ _ H0 E).
  - unfold quoted in E. change (bchr 34 :: t0 ++ [bchr 34]) with ((bchr 34 :: t0) ++ [bchr 34]) in E. apply A in E. discriminate.
  - change ("["%char :: w0 ++ ["]"%char]) with (("["%char :: w0) ++ ["]"%char]) in E. apply A in E. discriminate.
  - change ("["%char :: t0 ++ ["]"%char]) with (("["%char :: t0) ++ ["]"%char]) in E. apply A in E. discriminate.
  - change ("{"%char :: w0 ++ ["}"%char]) with (("{"%char :: w0) ++ ["}"%char]) in E. apply A in E. discriminate.
  - change ("{"%char :: t0 ++ ["}"%char]) with (("{"%char :: t0) ++ ["}"%char]) in E. apply A in E. discriminate.
Qed.

Theorem C40_trailing_refuted : exists (text : bytes) (v : value),
  outcome (parse_json 100 (InMem (MInput text 0))) = Ok v /\ (forall t, ~ commented_json text t).
Proof.
  exists (s2b "{}x"), (VMap []). split; [vm_compute; reflexivity|].
  intros t (w1 & b & w2 & E & W1 & V & W2).
  assert (L : ends_x (s2b "{}x")) by reflexivity. rewrite E in L. clear E.
  pose proof (jval_head _ _ _ _ _ rfc_num_head V) as N.
  apply ends_x_app in L; [|destruct b; [contradiction|discriminate]].
  destruct w2 as [|c w2].
  - rewrite app_nil_r in L. exact (jval_end _ _ _ _ V L).
  - apply ends_x_app in L; [|discriminate]. exact (cwsp_end _ W2 L).
Qed.
Print Assumptions C40_trailing_refuted.

(** ** C40: rejection *)

(** A literal with a comment in place of its last letter. *)
Definition cut_literal (text : bytes) : Prop :=
  exists lit a b, In lit [s2b "tru"; s2b "fals"; s2b "nul"] /\ text = a ++ lit ++ "/"%char :: b.

(** Whatever is accepted begins with an array or object of the JSON grammar, and the Variant
    is what that part of the text denotes.  The grammar is that of RFC 8259 with comments
    where white space may be, any byte that is not a control character inside strings, and
    numbers that may end in a point, without the numbers of the form 0e....  Missing for the
    full claim: text whose first character other than white space is not a bracket, what
    follows the root, and the cut literals; each is refuted. *)
Theorem C40_rejects_partial : forall (w : bytes) (c : ascii) (r : bytes) (i : pinput) (fuel : nat) (v : value),
  wsp w -> c = "["%char \/ c = "{"%char -> ~ cut_literal (c :: r) ->
  ready i -> unread i = w ++ c :: r -> (List.length (w ++ c :: r) + 4 < fuel)%nat ->
  outcome (parse_json fuel i) = Ok v ->
  exists (body rest : bytes) (t : jtree), c :: r = body ++ rest /\ jval cwsp byte_plain lib_num body t /\ root t /\
    (plain_tree t -> denotes t v).
Proof.
  intros w c r i fuel v W HC CL Hi E Hf H. rewrite outcome_flat in H by (rewrite ?E; assumption). rewrite E in H.
  destruct (flat_parse (w ++ c :: r)) as [[v' rest]| | | |] eqn:F; try discriminate H. cbn [rbind] in H. injection H as <-.
  assert (C : clean (c :: r)).
  { intros a b. repeat split; intros X; apply CL; [exists (s2b "tru")|exists (s2b "fals")|exists (s2b "nul")];
      exists a, b; (split; [cbn; auto|]); rewrite X; reflexivity. }
  destruct (accepted_document w c r v' rest W HC C F) as (body & w2 & t & E2 & V & _ & R & T).
  exists body, (w2 ++ rest), t. repeat split; auto.
  intros P. destruct (tval_denotes t P) as (v & Ev & D). congruence.
Qed.
Print Assumptions C40_rejects_partial.

Fixpoint cutb (text : bytes) : bool :=
  existsb (fun lit => beqb (firstn (List.length lit) text) lit) [s2b "tru/"; s2b "fals/"; s2b "nul/"] ||
  match text with [] => false | _ :: t => cutb t end.
Lemma cutb_ok text : cutb text = false -> ~ cut_literal text.
Proof.
  intros F (lit & a & b & L & ->). revert F. induction a as [|c a IH]; intros F.
  - cbn [In] in L. destruct L as [<-|[<-|[<-|[]]]]; cbn in F; discriminate F.
  - apply IH. cbn [app cutb] in F. apply orb_false_iff in F. apply F.
Qed.

(** A text meeting the hypotheses, with comments and something after the root; and some
    texts of which this theorem is the reason that they are rejected. *)
Definition C40_commented : bytes := s2b "[1 /* one */ , /**/ {""a"":true}/**/] tail".
Example C40_rejects_example : ~ cut_literal C40_commented /\
  outcome (parse_json 100 (InMem (MInput C40_commented 0))) = Ok (VList [VUns 1; VMap [(s2b "a", VBool true)]]) /\
  Forall (fun text => ~ cut_literal text /\ outcome (parse_json 100 (InMem (MInput text 0))) = Throw RuntimeError)
    [s2b "[1,]"; s2b "[1 2]"; s2b "[01]"; s2b "[1e]"; s2b "[1/2]"; s2b "[1}"; s2b "[tru]"; s2b "{""a"" 1}"; s2b "{""a"":1,}"; s2b "{1:2}"].
Proof.
  split; [apply cutb_ok; reflexivity|]. split; [vm_compute; reflexivity|].
  repeat constructor; try (apply cutb_ok; reflexivity); vm_compute; reflexivity.
Qed.

(** A comment in place of the last letter of a literal: "[tru/**/]" is read as [true]. *)
Theorem C40_cut_literal_refuted : exists (text : bytes) (v : value),
  outcome (parse_json 100 (InMem (MInput text 0))) = Ok v /\ (forall t, ~ commented_json text t).
Proof.
  exists (s2b "[tru/**/]"), (VList [VBool true]). split; [vm_compute; reflexivity|].
  intros t (w1 & b & w2 & E & W1 & V & _).
  assert (EL : forall u l x, jelems cwsp utf8_plain rfc_num u l -> s2b "tru/**/]" = u ++ x -> False).
  { intros u l x H Eu.
    assert (G : forall w u r v, cwsp w -> jval cwsp utf8_plain rfc_num u v -> s2b "tru/**/]" = w ++ u ++ r -> False).
    { clear. intros w u r v W V E. destruct W as [|c w Hc _|c w _ _]; [|injection E as <- _; discriminate Hc|discriminate E].
      cbn [app] in E. inversion V; subst; try discriminate E.
      match goal with X : rfc_num _ _ |- _ => apply rfc_num_head in X; destruct u as [|c u]; [exact X|]; injection E as <- _;
        destruct X as [X|X]; discriminate X end. }
    inversion H; subst; rewrite <- !app_assoc in Eu; match goal with X : jval _ _ _ _ ?v |- _ => eapply (G _ _ _ v); [| |exact Eu]; assumption end. }
  destruct W1 as [|c w Hc _|c w _ _]; cbn [app] in E; [|injection E as <- _; discriminate Hc|discriminate E].
  inversion V; subst; try discriminate E.
  - match goal with X : rfc_num _ _ |- _ => apply rfc_num_head in X; destruct b as [|c b]; [exact X|]; injection E as <- _;
        destruct X as [X|X]; discriminate X end.
  - injection E as E. match goal with X : cwsp _ |- _ => destruct X as [|c w Hc _|c w _ _] end; [discriminate E|injection E as <- _; discriminate Hc|discriminate E].
  - injection E as E. rewrite <- app_assoc in E. eapply EL; eauto.
Qed.
Print Assumptions C40_cut_literal_refuted.
