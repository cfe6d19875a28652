(** Properties C07, C08, C09: base64. *)
From Verif Require Import Base Base64 Base64Spec Base64Proofs.
Open Scope N_scope.

(** C07.  Encoding non-empty buffers, with any line length, gives a text that is
    the RFC 4648 encoding up to line breaks and that decodes to the concatenation
    of the buffers.  Missing for the full claim: an empty buffer in the list. *)
Theorem C07_base64_roundtrip_partial : forall (iov : list bytes) (cpl : N),
  Forall (fun b => b <> []) iov ->
  exists t, base64_encode iov cpl = Ok (t, wrap32 (N.of_nat (List.length t))) /\
            strip_nl t = rfc4648 (List.concat iov) /\
            base64_decode t = Ok (List.concat iov).
Proof. exact roundtrip_lemma. Qed.
Print Assumptions C07_base64_roundtrip_partial.

(** With no line breaks the text is exactly RFC 4648. *)
Theorem C07_base64_rfc4648_partial : forall (iov : list bytes),
  Forall (fun b => b <> []) iov ->
  exists n, base64_encode iov 0 = Ok (rfc4648 (List.concat iov), n).
Proof.
  intros iov F. pose proof (base64_encode_list iov 0 F) as E. cbn zeta in E.
  rewrite enc_list_rfc in E. change (0 <? 0) with false in E. cbv iota in E. rewrite app_nil_r in E.
  eexists. exact E.
Qed.
Print Assumptions C07_base64_rfc4648_partial.

Example C07_case : base64_encode [s2b "Ma"; s2b "n is"; s2b " distinguished"] 8 =
  Ok (s2b "TWFuIGlz" ++ [NL] ++ s2b "IGRpc3Rp" ++ [NL] ++ s2b "bmd1aXNo" ++ [NL] ++ s2b "ZWQ=" ++ [NL], 32) /\
  base64_decode (s2b "TWFuIGlz" ++ [NL] ++ s2b "IGRpc3Rp" ++ [NL] ++ s2b "bmd1aXNo" ++ [NL] ++ s2b "ZWQ=" ++ [NL])
  = Ok (s2b "Man is distinguished").
Proof. split; reflexivity. Qed.

(** The full claim is false: encoding an empty buffer reads outside it. *)
Theorem C07_base64_roundtrip_refuted : exists (iov : list bytes) (cpl : N),
  base64_encode iov cpl = UB.
Proof. exists [[]], 0. reflexivity. Qed.
Print Assumptions C07_base64_roundtrip_refuted.

(** C08.  The announced size holds the text and its NUL, as long as the size
    computation itself does not wrap. *)
Theorem C08_encode_size_sufficient_partial : forall (iov : list bytes) (cpl : N),
  Forall (fun b => b <> []) iov -> cpl < 2^32 ->
  let n := N.of_nat (List.length (List.concat iov)) in
  4 * n + 14 < 2^32 ->
  exists t, base64_encode iov cpl = Ok (t, N.of_nat (List.length t)) /\
            N.of_nat (List.length (t ++ [bchr 0])) <= base64_encode_size n cpl.
Proof.
  intros iov cpl F Hc n Hn. pose proof (base64_encode_list iov cpl F) as E. cbn zeta in E.
  destruct (encode_text_length cpl (List.concat iov) Hc Hn) as [L1 L2].
  eexists. split.
  - rewrite E. unfold wrap32. rewrite N.mod_small by exact L2. reflexivity.
  - rewrite (app_length _ [bchr 0]), Nat2N.inj_add. exact L1.
Qed.
Print Assumptions C08_encode_size_sufficient_partial.

(** The decoder never stores more than the announced size. *)
Theorem C08_decode_size_sufficient_partial : forall (s out : bytes),
  let n := N.of_nat (List.length s) in
  3 * n < 2^32 -> ~ In "{"%char s -> base64_decode s = Ok out ->
  N.of_nat (List.length out) < base64_decode_size n.
Proof.
  intros s out n Hn Hb E. rewrite base64_decode_meaning in E by exact Hb. injection E as <-.
  pose proof (meaning_length s) as L. unfold base64_decode_size.
  assert (W : wrap32 (n * 3) = n * 3) by (unfold wrap32; apply N.mod_small; lia). rewrite W.
  pose proof (N.div_mod (n * 3) 4 ltac:(lia)) as D. pose proof (N.mod_lt (n * 3) 4 ltac:(lia)) as M.
  assert (W2 : wrap32 (n * 3 / 4 + 1) = n * 3 / 4 + 1) by (unfold wrap32; apply N.mod_small; lia).
  rewrite W2. lia.
Qed.
Print Assumptions C08_decode_size_sufficient_partial.

Example C08_case :
  4 * 20 + 14 < 2^32 /\ base64_encode_size 20 8 = 38 /\ base64_decode_size 32 = 25.
Proof. split; [|split]; vm_compute; reflexivity. Qed.

(** For a buffer of 2^30 bytes the size computation wraps and announces 5 bytes. *)
Theorem C08_encode_size_refuted : exists (n : N), n < 2^32 /\
  forall data : bytes, N.of_nat (List.length data) = n ->
  exists t, base64_encode_buf data 0 = Ok (t, N.of_nat (List.length t)) /\
            base64_encode_size n 0 < N.of_nat (List.length (t ++ [bchr 0])).
Proof.
  exists (2^30). split; [reflexivity|]. intros data H.
  assert (F : Forall (fun b => b <> []) [data]).
  { constructor; [|constructor]. intros ->. discriminate H. }
  pose proof (base64_encode_list [data] 0 F) as E. cbn zeta in E.
  cbn [List.concat] in E. rewrite app_nil_r in E. change (0 <? 0) with false in E. cbv iota in E.
  rewrite app_nil_r in E.
  assert (L : N.of_nat (List.length (enc_list 0 0 data)) = 4 * ((2^30 + 2) / 3)).
  { rewrite enc_list_length; rewrite ?H; [reflexivity|reflexivity|reflexivity|]. intros K. discriminate K. }
  eexists. split.
  - unfold base64_encode_buf. rewrite E. unfold wrap32. rewrite N.mod_small; [reflexivity|]. rewrite L. reflexivity.
  - rewrite app_length, Nat2N.inj_add, L. reflexivity.
Qed.
Print Assumptions C08_encode_size_refuted.

(** C09.  Apart from the character '{', decoding any byte string is defined and
    gives exactly the meaning of the text, to which only alphabet characters
    contribute. *)
Theorem C09_decode_total_partial : forall s : bytes,
  ~ In "{"%char s -> base64_decode s = Ok (base64_meaning s).
Proof. exact base64_decode_meaning. Qed.
Print Assumptions C09_decode_total_partial.

Theorem C09_decode_ignores_foreign_partial : forall (s1 s2 : bytes) (c : ascii),
  ~ In c alphabet -> c <> "{"%char -> ~ In "{"%char (s1 ++ s2) ->
  base64_decode (s1 ++ c :: s2) = base64_decode (s1 ++ s2).
Proof.
  intros s1 s2 c Hc Hb Hin.
  rewrite !base64_decode_meaning; [|exact Hin|].
  - f_equal. unfold base64_meaning. f_equal. rewrite !flat_map_app. cbn [flat_map]. f_equal.
    assert (E : find_index c alphabet = None).
    { revert Hc. generalize alphabet. induction l as [|x l IH]; intros K; [reflexivity|].
      cbn [find_index]. destruct (aeqb c x) eqn:X.
      - apply aeqb_eq in X. subst. exfalso. apply K. left. reflexivity.
      - rewrite IH; [reflexivity|]. intros Y. apply K. right. exact Y. }
    unfold char_bits at 1. rewrite E. reflexivity.
  - intros K. apply in_app_or in K as [K|[K|K]]; [|congruence|]; apply Hin, in_or_app; auto.
Qed.
Print Assumptions C09_decode_ignores_foreign_partial.

Example C09_case : ~ In " "%char alphabet /\ base64_decode (s2b "T W=F*u") = Ok (s2b "Man").
Proof. split; [|reflexivity]. vm_compute. intuition discriminate. Qed.

(** The full claim is false: '{' indexes one past the end of the decoding table. *)
Theorem C09_decode_total_refuted : exists s : bytes, base64_decode s = UB.
Proof. exists (s2b "TWFu{"). reflexivity. Qed.
Print Assumptions C09_decode_total_refuted.
