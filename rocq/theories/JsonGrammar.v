(** The JSON grammar of RFC 8259, with the meaning of each sentence (specification
    side: nothing here models /repo). *)
From Verif Require Import Base CNum.
Open Scope N_scope.

(** What a JSON text denotes.  A number without fraction and exponent is [TInt neg n],
    meaning n or -n; any other number is [TDec neg D E], meaning (-1)^neg * D * 10^E.
    The members of an object are kept in the order of the text. *)
Inductive jtree :=
| TNul | TBool (b : bool) | TInt (neg : bool) (n : N) | TDec (neg : bool) (D : N) (E : Z)
| TStr (s : bytes) | TArr (l : list jtree) | TObj (m : list (bytes * jtree)).

(** RFC 3629: the UTF-8 encoding of a code point, and the code points that have one. *)
Definition utf8 (c : N) : bytes :=
  if c <? 128 then [bchr c]
  else if c <? 2048 then [bchr (192 + c / 64); bchr (128 + c mod 64)]
  else if c <? 65536 then [bchr (224 + c / 4096); bchr (128 + c / 64 mod 64); bchr (128 + c mod 64)]
  else [bchr (240 + c / 262144); bchr (128 + c / 4096 mod 64); bchr (128 + c / 64 mod 64); bchr (128 + c mod 64)].
Definition scalar (c : N) : Prop := c < 55296 \/ (57344 <= c /\ c < 1114112).

(** RFC 8259 section 2: insignificant whitespace. *)
Definition is_ws (c : ascii) : bool :=
  (bval c =? 32) || (bval c =? 9) || (bval c =? 10) || (bval c =? 13).
Definition wsp (w : bytes) : Prop := forallb is_ws w = true.

(** Whitespace with C comments. *)
Inductive cwsp : bytes -> Prop :=
| CWNil : cwsp []
| CWChar c w : is_ws c = true -> cwsp w -> cwsp (c :: w)
| CWComment t w : (forall a b, t <> a ++ "*"%char :: "/"%char :: b) -> cwsp w ->
    cwsp ("/"%char :: "*"%char :: t ++ "*"%char :: "/"%char :: w).

(** RFC 8259 section 7: the two-character escapes, hexadecimal digits. *)
Definition short_escape (c : ascii) : option N :=
  if aeqb c (bchr 34) then Some 34 else if aeqb c "\" then Some 92 else if aeqb c "/" then Some 47
  else if aeqb c "b" then Some 8 else if aeqb c "f" then Some 12 else if aeqb c "n" then Some 10
  else if aeqb c "r" then Some 13 else if aeqb c "t" then Some 9 else None.
Definition hexval (c : ascii) : option N :=
  let x := bval c in
  if (48 <=? x) && (x <=? 57) then Some (x - 48)
  else if (65 <=? x) && (x <=? 70) then Some (x - 55)
  else if (97 <=? x) && (x <=? 102) then Some (x - 87)
  else None.
(** Four hexadecimal digits with value [n]. *)
Inductive hex4 : bytes -> N -> Prop :=
| Hex4 a b c d x y z t : hexval a = Some x -> hexval b = Some y -> hexval c = Some z -> hexval d = Some t ->
    hex4 [a; b; c; d] (x * 4096 + y * 256 + z * 16 + t).

(** An unescaped character: RFC 8259 section 7 as UTF-8; and the laxer reading in which
    bytes from 128 up are not interpreted. *)
Definition utf8_plain (u : bytes) : Prop :=
  exists c, scalar c /\ 32 <= c /\ c <> 34 /\ c <> 92 /\ u = utf8 c.
Definition byte_plain (u : bytes) : Prop :=
  exists c, u = [c] /\ 32 <= bval c /\ bval c <> 34 /\ bval c <> 92.

Definition digits (ds : bytes) : Prop := forallb is_digit ds = true.

(** RFC 8259 section 6: the parts of a number. *)
Definition int_part (ip : bytes) : Prop :=
  ip = s2b "0" \/ exists c ds, ip = c :: ds /\ is_digit c = true /\ c <> "0"%char /\ digits ds.
Definition exp_part (e : ascii) (sg ds : bytes) : Prop :=
  (e = "e"%char \/ e = "E"%char) /\ (sg = [] \/ sg = s2b "+" \/ sg = s2b "-") /\ digits ds /\ ds <> [].
Definition exp_value (sg ds : bytes) : Z :=
  if beqb sg (s2b "-") then (- Z.of_N (dec_value ds))%Z else Z.of_N (dec_value ds).
Definition minus (neg : bool) : bytes := if neg then ["-"%char] else [].

(** Sentences [number] with their meaning.  [frac ds] says which digits may follow a
    decimal point, [ze] whether "0" may be followed by an exponent. *)
Inductive numg (frac : bytes -> Prop) (ze : bool) : bytes -> jtree -> Prop :=
| NumInt neg ip : int_part ip ->
    numg frac ze (minus neg ++ ip) (TInt neg (dec_value ip))
| NumFrac neg ip fp : int_part ip -> digits fp -> frac fp ->
    numg frac ze (minus neg ++ ip ++ "."%char :: fp) (TDec neg (dec_value (ip ++ fp)) (- Z.of_nat (List.length fp)))
| NumExp neg ip e sg ds : int_part ip -> exp_part e sg ds -> (ip = s2b "0" -> ze = true) ->
    numg frac ze (minus neg ++ ip ++ e :: sg ++ ds) (TDec neg (dec_value ip) (exp_value sg ds))
| NumFracExp neg ip fp e sg ds : int_part ip -> digits fp -> frac fp -> exp_part e sg ds ->
    numg frac ze (minus neg ++ ip ++ "."%char :: fp ++ e :: sg ++ ds)
      (TDec neg (dec_value (ip ++ fp)) (exp_value sg ds - Z.of_nat (List.length fp))).

(** RFC 8259: a point is followed by at least one digit. *)
Definition rfc_num : bytes -> jtree -> Prop := numg (fun fp => fp <> []) true.
(** The numbers lib/json reads: "1." is one, "0e1" is not. *)
Definition lib_num : bytes -> jtree -> Prop := numg (fun _ => True) false.

Section Grammar.
  Variable white : bytes -> Prop.
  Variable plain : bytes -> Prop.
  Variable num : bytes -> jtree -> Prop.

  (** RFC 8259 section 7: the inside of a string and the bytes it denotes. *)
  Inductive chars : bytes -> bytes -> Prop :=
  | CNil : chars [] []
  | CPlain u t s : plain u -> chars t s -> chars (u ++ t) (u ++ s)
  | CShort c x t s : short_escape c = Some x -> chars t s -> chars ("\"%char :: c :: t) (bchr x :: s)
  | CUni h x t s : hex4 h x -> scalar x -> chars t s -> chars ("\"%char :: "u"%char :: h ++ t) (utf8 x ++ s)
  | CPair h1 x1 h2 x2 t s : hex4 h1 x1 -> 55296 <= x1 < 56320 -> hex4 h2 x2 -> 56320 <= x2 < 57344 -> chars t s ->
      chars ("\"%char :: "u"%char :: h1 ++ "\"%char :: "u"%char :: h2 ++ t)
            (utf8 (65536 + (x1 - 55296) * 1024 + (x2 - 56320)) ++ s).

  Definition quoted (t : bytes) : bytes := bchr 34 :: t ++ [bchr 34].

  (** RFC 8259 sections 3, 4, 5: values, the elements of an array, the members of an object. *)
  Inductive jval : bytes -> jtree -> Prop :=
  | JNul : jval (s2b "null") TNul
  | JTru : jval (s2b "true") (TBool true)
  | JFal : jval (s2b "false") (TBool false)
  | JNum t n : num t n -> jval t n
  | JStr t s : chars t s -> jval (quoted t) (TStr s)
  | JArr0 w : white w -> jval ("["%char :: w ++ ["]"%char]) (TArr [])
  | JArr t l : jelems t l -> jval ("["%char :: t ++ ["]"%char]) (TArr l)
  | JObj0 w : white w -> jval ("{"%char :: w ++ ["}"%char]) (TObj [])
  | JObj t m : jmembers t m -> jval ("{"%char :: t ++ ["}"%char]) (TObj m)
  with jelems : bytes -> list jtree -> Prop :=
  | JEOne w1 t w2 v : white w1 -> jval t v -> white w2 -> jelems (w1 ++ t ++ w2) [v]
  | JECons w1 t w2 v r l : white w1 -> jval t v -> white w2 -> jelems r l ->
      jelems (w1 ++ t ++ w2 ++ ","%char :: r) (v :: l)
  with jmembers : bytes -> list (bytes * jtree) -> Prop :=
  | JMOne w1 kt k w2 w3 t w4 v : white w1 -> chars kt k -> white w2 -> white w3 -> jval t v -> white w4 ->
      jmembers (w1 ++ quoted kt ++ w2 ++ ":"%char :: w3 ++ t ++ w4) [(k, v)]
  | JMCons w1 kt k w2 w3 t w4 v r m : white w1 -> chars kt k -> white w2 -> white w3 -> jval t v -> white w4 -> jmembers r m ->
      jmembers (w1 ++ quoted kt ++ w2 ++ ":"%char :: w3 ++ t ++ w4 ++ ","%char :: r) ((k, v) :: m).

  Scheme jval_mut := Induction for jval Sort Prop
    with jelems_mut := Induction for jelems Sort Prop
    with jmembers_mut := Induction for jmembers Sort Prop.
  Combined Scheme jval_all from jval_mut, jelems_mut, jmembers_mut.

  (** RFC 8259 section 2: JSON-text = ws value ws. *)
  Definition jdoc (text : bytes) (v : jtree) : Prop :=
    exists w1 t w2, text = w1 ++ t ++ w2 /\ white w1 /\ jval t v /\ white w2.
End Grammar.

(** JSON texts. *)
Definition rfc_json : bytes -> jtree -> Prop := jdoc wsp utf8_plain rfc_num.
(** JSON texts in which comments may stand wherever whitespace may. *)
Definition commented_json : bytes -> jtree -> Prop := jdoc cwsp utf8_plain rfc_num.
(** JSON as lib/json reads it. *)
Definition lib_json : bytes -> jtree -> Prop := jdoc wsp byte_plain lib_num.

(** JSON texts without numbers of the form 0e... *)
Definition rfc_num_no0e : bytes -> jtree -> Prop := numg (fun fp => fp <> []) false.
Definition rfc_json_no0e : bytes -> jtree -> Prop := jdoc wsp utf8_plain rfc_num_no0e.

(** ** Inclusions *)

Lemma chars_app plain a s b t : chars plain a s -> chars plain b t -> chars plain (a ++ b) (s ++ t).
Proof.
  induction 1; intros K; cbn [app].
  - exact K.
  - rewrite <- !app_assoc. apply CPlain; auto.
  - eapply CShort; eauto.
  - rewrite <- !app_assoc. eapply CUni; eauto.
  - rewrite <- !app_assoc. cbn [app]. rewrite <- app_assoc. eapply CPair; eauto.
Qed.

Lemma chars_mono (p q : bytes -> Prop) : (forall u, p u -> chars q u u) -> forall t s, chars p t s -> chars q t s.
Proof.
  intros H t s. induction 1.
  - constructor.
  - apply chars_app; auto.
  - eapply CShort; eauto.
  - eapply CUni; eauto.
  - eapply CPair; eauto.
Qed.

Lemma numg_mono (f g : bytes -> Prop) : (forall x, f x -> g x) -> forall ze t n, numg f ze t n -> numg g ze t n.
Proof. intros H ze t n K. inversion K; subst; constructor; auto. Qed.

Lemma jval_mono (w w' : bytes -> Prop) (p q : bytes -> Prop) (n n' : bytes -> jtree -> Prop) :
  (forall t, w t -> w' t) -> (forall u, p u -> chars q u u) -> (forall t x, n t x -> n' t x) ->
  (forall t v, jval w p n t v -> jval w' q n' t v) /\
  (forall t v, jelems w p n t v -> jelems w' q n' t v) /\
  (forall t v, jmembers w p n t v -> jmembers w' q n' t v).
Proof.
  intros Hw Hp Hn. pose proof (chars_mono p q Hp) as Hc.
  apply (jval_all w p n (fun t v _ => jval w' q n' t v) (fun t v _ => jelems w' q n' t v) (fun t v _ => jmembers w' q n' t v));
    intros; try (constructor; auto; fail).
Qed.

Lemma jdoc_mono (w w' : bytes -> Prop) (p q : bytes -> Prop) (n n' : bytes -> jtree -> Prop) :
  (forall t, w t -> w' t) -> (forall u, p u -> chars q u u) -> (forall t x, n t x -> n' t x) ->
  forall t v, jdoc w p n t v -> jdoc w' q n' t v.
Proof.
  intros Hw Hp Hn t v (w1 & t1 & w2 & -> & W1 & V & W2). exists w1, t1, w2. repeat split; auto.
  now apply (jval_mono w w' p q n n' Hw Hp Hn).
Qed.

Lemma byte_chars u : Forall (fun c => 32 <= bval c /\ bval c <> 34 /\ bval c <> 92) u -> chars byte_plain u u.
Proof.
  induction 1 as [|c u (H1 & H2 & H3) _ IH]; [constructor|].
  apply (CPlain _ [c]); [|exact IH]. exists c. auto.
Qed.

Lemma utf8_bytes u : utf8_plain u -> chars byte_plain u u.
Proof.
  intros (c & Hs & H1 & H2 & H3 & ->). apply byte_chars. unfold utf8, scalar in *.
  assert (D : forall x, x mod 64 < 64) by (intros; apply N.mod_lt; lia).
  destruct (N.ltb_spec c 128); [|destruct (N.ltb_spec c 2048); [|destruct (N.ltb_spec c 65536)]].
  - repeat constructor; rewrite bval_bchr; lia.
  - pose proof (D c). assert (c / 64 < 32) by (apply N.div_lt_upper_bound; lia).
    repeat constructor; rewrite bval_bchr by lia; lia.
  - pose proof (D c). pose proof (D (c / 64)). assert (c / 4096 < 16) by (apply N.div_lt_upper_bound; lia).
    repeat constructor; rewrite bval_bchr by lia; lia.
  - pose proof (D c). pose proof (D (c / 64)). pose proof (D (c / 4096)).
    assert (c / 262144 < 5) by (apply N.div_lt_upper_bound; lia).
    repeat constructor; rewrite bval_bchr by lia; lia.
Qed.

Lemma wsp_cwsp w : wsp w -> cwsp w.
Proof.
  unfold wsp. induction w as [|c w IH]; cbn [forallb]; intros H; [constructor|].
  apply andb_true_iff in H as [Hc Hw]. constructor; auto.
Qed.

Lemma no0e_lib t v : rfc_json_no0e t v -> lib_json t v.
Proof. apply jdoc_mono; [auto|apply utf8_bytes|]. intros x n. apply numg_mono. auto. Qed.

Lemma rfc_commented t v : rfc_json t v -> commented_json t v.
Proof.
  apply jdoc_mono; [apply wsp_cwsp| |auto]. intros u Hu. rewrite <- (app_nil_r u). apply CPlain; [exact Hu|constructor].
Qed.
