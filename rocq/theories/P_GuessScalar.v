(** C34: guessing the type of plain text. *)
From Verif Require Import Base CNum Float FloatText FloatTextProofs Emit Regex GuessScalar.
From Verif Require P_Convert.
From Coq Require Import Reals.
From Flocq Require Import Core IEEE754.BinarySingleNaN.
Open Scope N_scope.

(** ** What a text denotes *)

Definition blank_text (s : bytes) : Prop := Forall (fun c => In (bval c) [9; 10; 11; 12; 13; 32]) s.
Definition signs : list bytes := [[]; s2b "+"; s2b "-"].
Definition digits (ds : bytes) : Prop := Forall (fun c => 48 <= bval c <= 57) ds.

(** Positional value in a base, with the value of each digit. *)
Definition place (base : Z) (val : ascii -> Z) (ds : bytes) : Z := fold_left (fun a c => base * a + val c)%Z ds 0%Z.
Definition decimal (ds : bytes) : Z := place 10 (fun c => Z.of_N (bval c) - 48)%Z ds.
Definition digit_of (c : ascii) (v : Z) : Prop :=
  In (c, v) (List.combine (s2b "0123456789abcdef") (List.map Z.of_nat (seq 0 16)) ++ List.combine (s2b "0123456789ABCDEF") (List.map Z.of_nat (seq 0 16))).
(** [in_base b ds v]: ds is a non-empty row of digits of base b with value v. *)
Inductive in_base (b : Z) : bytes -> Z -> Prop :=
| ib_one c v : digit_of c v -> (v < b)%Z -> in_base b [c] v
| ib_more ds v c w : in_base b ds v -> digit_of c w -> (w < b)%Z -> in_base b (ds ++ [c]) (b * v + w)%Z.

(** The spellings of each kind of scalar. *)
Inductive form :=
| FNull | FTrue | FFalse
| FInt (sg ds : bytes)
| FOct (v : Z) | FHex (v : Z)
| FFloat (sg ip fp : bytes) (ex : option (bytes * bytes))
| FInf (neg : bool) | FNan.

Definition exponent (ex : option (bytes * bytes)) (t : bytes) : Prop :=
  match ex with
  | None => t = []
  | Some (sg, ds) => In sg signs /\ digits ds /\ ds <> [] /\ exists e, In e (s2b "eE") /\ t = e :: sg ++ ds
  end.

Inductive spelled : form -> bytes -> Prop :=
| sp_null w : In w [s2b "null"; s2b "Null"; s2b "NULL"; s2b "~"] -> spelled FNull w
| sp_true w : In w [s2b "true"; s2b "True"; s2b "TRUE"] -> spelled FTrue w
| sp_false w : In w [s2b "false"; s2b "False"; s2b "FALSE"] -> spelled FFalse w
| sp_int sg ds : In sg signs -> digits ds -> ds <> [] -> spelled (FInt sg ds) (sg ++ ds)
| sp_oct ds v : in_base 8 ds v -> spelled (FOct v) (s2b "0o" ++ ds)
| sp_hex ds v : in_base 16 ds v -> spelled (FHex v) (s2b "0x" ++ ds)
| sp_float_dot sg ip fp ex t : In sg signs -> digits ip -> digits fp -> ip ++ fp <> [] -> exponent ex t ->
    spelled (FFloat sg ip fp ex) (sg ++ ip ++ s2b "." ++ fp ++ t)
| sp_float_exp sg ip ex t : In sg signs -> digits ip -> ip <> [] -> exponent (Some ex) t ->
    spelled (FFloat sg ip [] (Some ex)) (sg ++ ip ++ t)
| sp_inf w : In w [s2b ".inf"; s2b "+.inf"; s2b ".Inf"; s2b ".INF"] -> spelled (FInf false) w
| sp_ninf : spelled (FInf true) (s2b "-.inf")
| sp_nan w : In w [s2b ".nan"; s2b ".Nan"; s2b ".NAN"] -> spelled FNan w.

(** The double nearest to (-1)^neg * m * 10^e, ties to even: infinite beyond the range. *)
Definition nearest (neg : bool) (m e : Z) (d : spec_float) : Prop :=
  let v := ((if neg then -1 else 1) * (IZR m * bpow radix10 e))%R in
  let r := round radix2 (SpecFloat.fexp 53 1024) ZnearestE v in
  SpecFloat.valid_binary 53 1024 d = true /\
  (if Rlt_bool (Rabs r) (bpow radix2 1024) then SF2R radix2 d = r /\ is_finite_SF d = true /\ sign_SF d = neg
   else d = S754_infinity neg).

Definition minus (sg : bytes) : bool := beqb sg (s2b "-").

(** The value of each form: integers in range only. *)
Inductive worth : form -> guess -> Prop :=
| w_null : worth FNull GNull
| w_true : worth FTrue (GBool true)
| w_false : worth FFalse (GBool false)
| w_int sg ds z : z = (if minus sg then - decimal ds else decimal ds)%Z -> (- 2^63 <= z < 2^63)%Z -> worth (FInt sg ds) (GInt z)
| w_uns sg ds n : minus sg = false -> Z.of_N n = decimal ds -> (2^63 <= decimal ds < 2^64)%Z -> worth (FInt sg ds) (GUns n)
| w_oct v n : Z.of_N n = v -> (v < 2^64)%Z -> worth (FOct v) (GUns n)
| w_hex v n : Z.of_N n = v -> (v < 2^64)%Z -> worth (FHex v) (GUns n)
| w_float sg ip fp ex d :
    nearest (minus sg) (decimal (ip ++ fp))
      ((match ex with None => 0 | Some (es, ed) => if minus es then - decimal ed else decimal ed end) - Z.of_nat (List.length fp)) d ->
    worth (FFloat sg ip fp ex) (GFlt d)
| w_inf neg : worth (FInf neg) (GFlt (S754_infinity neg))
| w_nan : worth FNan (GFlt S754_nan).

(** ** Languages of the alternatives *)

Lemma lang_seq a b s : lang (RSeq a b) s <-> exists x y, s = x ++ y /\ lang a x /\ lang b y.
Proof. split; [intros L; inversion L; subst; eauto|intros (x & y & -> & A & B); constructor; assumption]. Qed.
Lemma lang_alt a b s : lang (RAlt a b) s <-> lang a s \/ lang b s.
Proof. split; [intros L; inversion L; subst; auto|intros [A|A]; [apply l_alt1|apply l_alt2]; exact A]. Qed.
Lemma lang_chr f s : lang (RChr f) s <-> exists c, s = [c] /\ f c = true.
Proof. split; [intros L; inversion L; subst; eauto|intros (c & -> & A); constructor; assumption]. Qed.
Lemma lang_eps s : lang REps s <-> s = [].
Proof. split; [intros L; inversion L; auto|intros ->; constructor]. Qed.

Lemma lang_word w : forall s, lang (rword w) s <-> s = w.
Proof.
  induction w as [|c w IH]; intros s; cbn; [apply lang_eps|]. rewrite lang_seq. split.
  - intros (x & y & -> & A & B). apply lang_chr in A as (d & -> & E). apply aeqb_eq in E as ->. apply IH in B as ->. reflexivity.
  - intros ->. exists [c], w. split; [reflexivity|]. split; [apply lang_chr; exists c; split; [reflexivity|apply aeqb_refl]|apply IH; reflexivity].
Qed.

Lemma lang_star_chr f s : lang (RStar (RChr f)) s <-> forallb f s = true.
Proof.
  split.
  - intros L. remember (RStar (RChr f)) as r eqn:R. induction L as [| | | | | |a x y A _ B IH]; try discriminate; [reflexivity|].
    injection R as ->. apply lang_chr in A as (c & -> & E). cbn. rewrite E. apply IH. reflexivity.
  - induction s as [|c s IH]; cbn; intros H; [constructor|]. apply andb_true_iff in H as [H1 H2].
    apply (l_star1 _ [c] s); [constructor; exact H1|apply IH; exact H2].
Qed.

Lemma lang_plus_chr f s : lang (rplus (RChr f)) s <-> s <> [] /\ forallb f s = true.
Proof.
  unfold rplus. rewrite lang_seq. split.
  - intros (x & y & -> & A & B). apply lang_chr in A as (c & -> & E). apply lang_star_chr in B. cbn. rewrite E. split; [discriminate|exact B].
  - intros [N H]. destruct s as [|c s]; [congruence|]. cbn in H. apply andb_true_iff in H as [H1 H2].
    exists [c], s. split; [reflexivity|]. split; [constructor; exact H1|apply lang_star_chr; exact H2].
Qed.

Lemma lang_opt r s : lang (ropt r) s <-> lang r s \/ s = [].
Proof. unfold ropt. rewrite lang_alt, lang_eps. tauto. Qed.

Lemma lang_sign s : lang rsign s <-> In s signs.
Proof.
  unfold rsign. rewrite lang_opt, lang_chr. unfold signs. cbn [In]. split.
  - intros [(c & -> & E)| ->]; [|auto]. apply orb_true_iff in E as [E|E]; apply aeqb_eq in E as ->; auto.
  - intros [<-|[<-|[<-|[]]]]; [auto|left; eexists; split; reflexivity..].
Qed.

Lemma lang_words ws : ws <> [] -> forall s, lang (ralts (List.map rword ws)) s <-> In s ws.
Proof.
  induction ws as [|w ws IH]; intros N s; [congruence|]. destruct ws as [|w' ws].
  - cbn [List.map ralts In]. rewrite lang_word. intuition auto.
  - change (ralts (List.map rword (w :: w' :: ws))) with (RAlt (rword w) (ralts (List.map rword (w' :: ws)))).
    rewrite lang_alt, lang_word, IH by discriminate. cbn [In]. intuition auto.
Qed.

Lemma digits_b ds : digits ds <-> forallb is_digit ds = true.
Proof. symmetry. apply P_Convert.digits_forall. Qed.

Lemma in_base_digits b (isd : ascii -> bool) : (forall c, isd c = true <-> exists v, digit_of c v /\ (v < b)%Z) ->
  forall ds, (exists v, in_base b ds v) <-> ds <> [] /\ forallb isd ds = true.
Proof.
  intros HD ds. split.
  - intros [v I]. induction I as [c v D L|ds v c w I IH D L].
    + split; [discriminate|]. cbn. rewrite (proj2 (HD c)) by eauto. reflexivity.
    + split; [destruct ds; discriminate|]. rewrite forallb_app. cbn. rewrite (proj2 (HD c)) by eauto. rewrite (proj2 IH). reflexivity.
  - induction ds as [|c ds IH] using rev_ind; intros [N F]; [congruence|]. rewrite forallb_app in F. cbn in F. rewrite andb_true_r in F.
    apply andb_true_iff in F as [F1 F2]. apply HD in F2 as (w & D & L). destruct ds as [|d ds].
    + exists w. apply ib_one; assumption.
    + destruct IH as (v & I); [split; [discriminate|exact F1]|]. exists (b * v + w)%Z. apply ib_more; assumption.
Qed.

Definition vtable := List.combine (s2b "0123456789abcdef") (List.map Z.of_nat (seq 0 16)) ++ List.combine (s2b "0123456789ABCDEF") (List.map Z.of_nat (seq 0 16)).

Lemma digit_of_val c v : digit_of c v -> v = Z.of_N (xdigit_val c) /\ (0 <= v < 16)%Z.
Proof.
  intros H. assert (T : forallb (fun p => (snd p =? Z.of_N (xdigit_val (fst p))) && (0 <=? snd p) && (snd p <? 16))%Z vtable = true) by (vm_compute; reflexivity).
  rewrite forallb_forall in T. specialize (T _ H). cbn [fst snd] in T. lia.
Qed.

Lemma is_odigit_spec c : is_odigit c = true <-> exists v, digit_of c v /\ (v < 8)%Z.
Proof.
  split.
  - intros H. exists (Z.of_N (xdigit_val c)).
    assert (S : forallb (fun c => implb (is_odigit c) (existsb (fun p => aeqb (fst p) c && (snd p =? Z.of_N (xdigit_val c))%Z) vtable && (Z.of_N (xdigit_val c) <? 8)%Z)) all_bytes = true) by (vm_compute; reflexivity).
    pose proof (sweep _ S c) as T. cbv beta in T. rewrite H in T. cbn [implb] in T. apply andb_true_iff in T as [T1 T2].
    apply existsb_exists in T1 as ((a, b) & I & E). cbn [fst snd] in E. apply andb_true_iff in E as [E1 E2]. apply aeqb_eq in E1 as ->. apply Z.eqb_eq in E2 as ->.
    split; [exact I|lia].
  - intros (v & D & L). assert (T : forallb (fun p => implb (snd p <? 8)%Z (is_odigit (fst p))) vtable = true) by (vm_compute; reflexivity).
    rewrite forallb_forall in T. specialize (T _ D). cbn [fst snd] in T. rewrite (proj2 (Z.ltb_lt v 8) L) in T. exact T.
Qed.

Lemma is_xdigit_spec c : is_xdigit c = true <-> exists v, digit_of c v /\ (v < 16)%Z.
Proof.
  split.
  - intros H. exists (Z.of_N (xdigit_val c)).
    assert (S : forallb (fun c => implb (is_xdigit c) (existsb (fun p => aeqb (fst p) c && (snd p =? Z.of_N (xdigit_val c))%Z) vtable && (Z.of_N (xdigit_val c) <? 16)%Z)) all_bytes = true) by (vm_compute; reflexivity).
    pose proof (sweep _ S c) as T. cbv beta in T. rewrite H in T. cbn [implb] in T. apply andb_true_iff in T as [T1 T2].
    apply existsb_exists in T1 as ((a, b) & I & E). cbn [fst snd] in E. apply andb_true_iff in E as [E1 E2]. apply aeqb_eq in E1 as ->. apply Z.eqb_eq in E2 as ->.
    split; [exact I|lia].
  - intros (v & D & L). assert (T : forallb (fun p => is_xdigit (fst p)) vtable = true) by (vm_compute; reflexivity).
    rewrite forallb_forall in T. exact (T _ D).
Qed.

Lemma spell_null s : rmatch re_null s = true <-> spelled FNull s.
Proof.
  rewrite rmatch_lang. change re_null with (ralts (List.map rword [s2b "null"; s2b "Null"; s2b "NULL"; s2b "~"])).
  rewrite lang_words by discriminate. split; [apply sp_null|intros S; inversion S; auto].
Qed.
Lemma spell_true s : rmatch re_true s = true <-> spelled FTrue s.
Proof.
  rewrite rmatch_lang. change re_true with (ralts (List.map rword [s2b "true"; s2b "True"; s2b "TRUE"])).
  rewrite lang_words by discriminate. split; [apply sp_true|intros S; inversion S; auto].
Qed.
Lemma spell_false s : rmatch re_false s = true <-> spelled FFalse s.
Proof.
  rewrite rmatch_lang. change re_false with (ralts (List.map rword [s2b "false"; s2b "False"; s2b "FALSE"])).
  rewrite lang_words by discriminate. split; [apply sp_false|intros S; inversion S; auto].
Qed.
Lemma spell_nan s : rmatch re_nan s = true <-> spelled FNan s.
Proof.
  rewrite rmatch_lang. change re_nan with (ralts (List.map rword [s2b ".nan"; s2b ".Nan"; s2b ".NAN"])).
  rewrite lang_words by discriminate. split; [apply sp_nan|intros S; inversion S; auto].
Qed.
Lemma spell_int s : rmatch re_int10 s = true <-> exists sg ds, s = sg ++ ds /\ In sg signs /\ digits ds /\ ds <> [].
Proof.
  rewrite rmatch_lang. unfold re_int10. rewrite lang_seq. split.
  - intros (x & y & -> & A & B). apply lang_sign in A. apply lang_plus_chr in B as [N B]. exists x, y. rewrite digits_b. auto.
  - intros (x & y & -> & A & B & N). exists x, y. split; [reflexivity|]. rewrite lang_sign. split; [exact A|]. apply lang_plus_chr. rewrite <- digits_b. auto.
Qed.
Lemma spell_oct s : rmatch re_int8 s = true <-> exists v ds, s = s2b "0o" ++ ds /\ in_base 8 ds v.
Proof.
  rewrite rmatch_lang. unfold re_int8. rewrite lang_seq. split.
  - intros (x & y & -> & A & B). apply lang_word in A as ->. apply lang_plus_chr in B. apply (in_base_digits 8 _ is_odigit_spec) in B as (v & B). exists v, y. auto.
  - intros (v & y & -> & B). exists (s2b "0o"), y. split; [reflexivity|]. split; [apply lang_word; reflexivity|]. apply lang_plus_chr. apply (in_base_digits 8 _ is_odigit_spec). eauto.
Qed.
Lemma spell_hex s : rmatch re_int16 s = true <-> exists v ds, s = s2b "0x" ++ ds /\ in_base 16 ds v.
Proof.
  rewrite rmatch_lang. unfold re_int16. rewrite lang_seq. split.
  - intros (x & y & -> & A & B). apply lang_word in A as ->. apply lang_plus_chr in B. apply (in_base_digits 16 _ is_xdigit_spec) in B as (v & B). exists v, y. auto.
  - intros (v & y & -> & B). exists (s2b "0x"), y. split; [reflexivity|]. split; [apply lang_word; reflexivity|]. apply lang_plus_chr. apply (in_base_digits 16 _ is_xdigit_spec). eauto.
Qed.
Lemma spell_inf s : rmatch re_inf s = true <-> exists neg, spelled (FInf neg) s.
Proof.
  rewrite rmatch_lang. unfold re_inf. cbn [ralts]. rewrite !lang_alt, lang_seq, !lang_word. split.
  - intros [(x & y & -> & A & B)|[->| ->]].
    + apply lang_sign in A. apply lang_word in B as ->. cbn in A.
      destruct A as [<-|[<-|[<-|[]]]]; [exists false; apply sp_inf; cbn; auto|exists false; apply sp_inf; cbn; auto|exists true; apply sp_ninf].
    + exists false. apply sp_inf. cbn; auto.
    + exists false. apply sp_inf. cbn; auto.
  - intros (neg & S). inversion S as [| | | | | | | |w I|I|]; subst.
    + cbn [In] in I. destruct I as [<-|[<-|[<-|[<-|[]]]]]; [left; exists [], (s2b ".inf")|left; exists (s2b "+"), (s2b ".inf")|auto|auto];
        (split; [reflexivity|]; split; [apply lang_sign; cbn; auto|apply lang_word; reflexivity]).
    + left. exists (s2b "-"), (s2b ".inf"). split; [reflexivity|]. split; [apply lang_sign; cbn; auto|apply lang_word; reflexivity].
Qed.

Lemma lang_exp t : lang (ropt (RSeq (RChr (fun c => aeqb c "e" || aeqb c "E")) (RSeq rsign (rplus rdigit)))) t <-> exists ex, exponent ex t.
Proof.
  rewrite lang_opt, lang_seq. split.
  - intros [(x & y & -> & A & B)| ->]; [|exists None; reflexivity].
    apply lang_chr in A as (e & -> & E). apply lang_seq in B as (sg & ds & -> & S & D). apply lang_sign in S. apply lang_plus_chr in D as [N D].
    exists (Some (sg, ds)). cbn [exponent]. rewrite digits_b. repeat split; auto. exists e. split; [|reflexivity].
    apply orb_true_iff in E as [E|E]; apply aeqb_eq in E as ->; cbn; auto.
  - intros ([(sg, ds)|] & X); cbn [exponent] in X; [left|auto]. destruct X as (S & D & N & e & E & ->).
    exists [e], (sg ++ ds). split; [reflexivity|]. split; [constructor; cbn in E; destruct E as [<-|[<-|[]]]; reflexivity|].
    apply lang_seq. exists sg, ds. split; [reflexivity|]. split; [apply lang_sign; exact S|]. apply lang_plus_chr. rewrite <- digits_b. auto.
Qed.

(** A float text, or an integer. *)
Lemma spell_float s : rmatch re_float s = true <->
  (exists sg ip fp ex, spelled (FFloat sg ip fp ex) s) \/ (exists sg ds, spelled (FInt sg ds) s).
Proof.
  rewrite rmatch_lang. unfold re_float. rewrite lang_seq. split.
  - intros (sg & y & -> & S & L). apply lang_sign in S. apply lang_seq in L as (m & t & -> & M & X). apply lang_exp in X as (ex & X).
    apply lang_alt in M as [M|M].
    + apply lang_seq in M as (d & fp & -> & D & F). apply lang_word in D as ->. apply lang_plus_chr in F as [N F].
      left. exists sg, [], fp, ex. rewrite <- app_assoc. apply (sp_float_dot sg [] fp ex t); auto; [constructor|apply digits_b; exact F].
    + apply lang_seq in M as (ip & o & -> & I & O). apply lang_plus_chr in I as [N I]. apply digits_b in I.
      apply lang_opt in O as [O| ->].
      * apply lang_seq in O as (d & fp & -> & D & F). apply lang_word in D as ->. apply lang_star_chr in F.
        left. exists sg, ip, fp, ex. rewrite <- !app_assoc. apply sp_float_dot; auto; [apply digits_b; exact F|destruct ip; [congruence|discriminate]].
      * rewrite app_nil_r. destruct ex as [ex|].
        -- left. exists sg, ip, [], (Some ex). apply sp_float_exp; auto.
        -- cbn in X. subst t. rewrite app_nil_r. right. exists sg, ip. apply sp_int; auto.
  - intros [(sg & ip & fp & ex & S)|(sg & ds & S)].
    + inversion S as [| | | | | |? ? ? ? t S1 S2 S3 S4 S5|? ? ? t S1 S2 S3 S5| | |]; subst.
      * exists sg, (ip ++ s2b "." ++ fp ++ t). split; [reflexivity|]. split; [apply lang_sign; exact S1|].
        apply lang_seq. exists (ip ++ s2b "." ++ fp), t. rewrite <- !app_assoc. split; [reflexivity|]. split; [|apply lang_exp; eauto].
        apply lang_alt. destruct ip as [|c ip].
        -- left. apply lang_seq. exists (s2b "."), fp. split; [reflexivity|]. split; [apply lang_word; reflexivity|].
           apply lang_plus_chr. split; [exact S4|apply digits_b; exact S3].
        -- right. apply lang_seq. exists (c :: ip), (s2b "." ++ fp). split; [reflexivity|]. split; [apply lang_plus_chr; split; [discriminate|apply digits_b; exact S2]|].
           apply lang_opt. left. apply lang_seq. exists (s2b "."), fp. split; [reflexivity|]. split; [apply lang_word; reflexivity|apply lang_star_chr; apply digits_b; exact S3].
      * exists sg, (ip ++ t). split; [reflexivity|]. split; [apply lang_sign; exact S1|].
        apply lang_seq. exists ip, t. split; [reflexivity|]. split; [|apply lang_exp; eauto].
        apply lang_alt. right. apply lang_seq. exists ip, []. rewrite app_nil_r. split; [reflexivity|].
        split; [apply lang_plus_chr; split; [exact S3|apply digits_b; exact S2]|apply lang_opt; auto].
    + inversion S as [| | |? ? S1 S2 S3| | | | | | |]; subst. exists sg, ds. split; [reflexivity|]. split; [apply lang_sign; exact S1|].
      apply lang_seq. exists ds, []. rewrite app_nil_r. split; [reflexivity|]. split; [|apply lang_exp; exists None; reflexivity].
      apply lang_alt. right. apply lang_seq. exists ds, []. rewrite app_nil_r. split; [reflexivity|].
      split; [apply lang_plus_chr; split; [exact S3|apply digits_b; exact S2]|apply lang_opt; auto].
Qed.

(** ** Surrounding white space *)

Definition inky (c : ascii) : bool := negb (is_space c) && negb (aeqb c (bchr 0)).

Lemma blank_b s : blank_text s <-> forallb is_space s = true.
Proof.
  unfold blank_text. rewrite Forall_forall, forallb_forall. split; intros H c I; specialize (H c I).
  - assert (S : forallb (fun c => implb (existsb (N.eqb (bval c)) [9; 10; 11; 12; 13; 32]) (is_space c)) all_bytes = true) by (vm_compute; reflexivity).
    pose proof (sweep _ S c) as T. cbv beta in T.
    assert (E : existsb (N.eqb (bval c)) [9; 10; 11; 12; 13; 32] = true) by (apply existsb_exists; exists (bval c); split; [exact H|apply N.eqb_refl]).
    rewrite E in T. exact T.
  - assert (S : forallb (fun c => implb (is_space c) (existsb (N.eqb (bval c)) [9; 10; 11; 12; 13; 32])) all_bytes = true) by (vm_compute; reflexivity).
    pose proof (sweep _ S c) as T. cbv beta in T. rewrite H in T. cbn [implb] in T. apply existsb_exists in T as (x & I' & E). apply N.eqb_eq in E. rewrite E. exact I'.
Qed.

Lemma skip_blank a t : forallb is_space a = true -> (match t with [] => true | c :: _ => negb (is_space c) end = true) -> skip_space (a ++ t) = t.
Proof. intros A B. unfold skip_space. rewrite span_all by assumption. reflexivity. Qed.

Lemma forallb_rev {A} (f : A -> bool) l : forallb f (rev l) = forallb f l.
Proof. induction l as [|x l IH]; [reflexivity|]. cbn. rewrite forallb_app, IH. cbn. rewrite andb_true_r. apply andb_comm. Qed.

Lemma trim_text a t b : forallb is_space a = true -> forallb is_space b = true -> t <> [] -> forallb inky t = true ->
  c_str (a ++ t ++ b) = a ++ t ++ b /\ skip_space (a ++ t ++ b) = t ++ b /\ drop_trailing (t ++ b) = t.
Proof.
  intros A B N I. split; [|split].
  - assert (K : forall s, forallb (fun c => is_space c || inky c) s = true -> c_str s = s).
    { induction s as [|c s IH]; cbn [forallb c_str]; intros H; [reflexivity|]. apply andb_true_iff in H as [H1 H2].
      assert (S : forallb (fun c => implb (is_space c || inky c) (negb (aeqb c (bchr 0)))) all_bytes = true) by (vm_compute; reflexivity).
      pose proof (sweep _ S c) as T. cbv beta in T. rewrite H1 in T. cbn [implb] in T. apply negb_true_iff in T. rewrite T, IH by exact H2. reflexivity. }
    apply K. rewrite !forallb_app. rewrite forallb_forall in A, B, I.
    rewrite !(proj2 (forallb_forall _ _)); [reflexivity|intros c J; rewrite (B c J); reflexivity|intros c J; rewrite (I c J); apply orb_true_r|intros c J; rewrite (A c J); reflexivity].
  - apply skip_blank; [exact A|]. destruct t as [|c t]; [congruence|]. cbn in I |- *. unfold inky in I.
    destruct (is_space c); [discriminate I|reflexivity].
  - unfold drop_trailing. rewrite rev_app_distr. rewrite skip_blank; [apply rev_involutive|rewrite forallb_rev; exact B|].
    rewrite <- forallb_rev in I. destruct (rev t) as [|c r] eqn:E; [reflexivity|]. cbn in I. unfold inky in I.
    destruct (is_space c); [discriminate I|reflexivity].
Qed.

Lemma digits_inky ds : digits ds -> forallb inky ds = true.
Proof.
  rewrite digits_b, !forallb_forall. intros H c I. specialize (H c I).
  assert (S : forallb (fun c => implb (is_digit c) (inky c)) all_bytes = true) by (vm_compute; reflexivity).
  pose proof (sweep _ S c) as T. cbv beta in T. rewrite H in T. exact T.
Qed.

Lemma in_base_inky b ds v : in_base b ds v -> ds <> [] /\ forallb inky ds = true.
Proof.
  assert (T : forallb (fun p => inky (fst p)) vtable = true) by (vm_compute; reflexivity). rewrite forallb_forall in T.
  induction 1 as [c v D _|ds v c w _ [_ IH] D _].
  - split; [discriminate|]. cbn. rewrite (T _ D : inky c = true). reflexivity.
  - split; [destruct ds; discriminate|]. rewrite forallb_app, IH. cbn. rewrite (T _ D : inky c = true). reflexivity.
Qed.

Lemma sign_inky sg : In sg signs -> forallb inky sg = true.
Proof. cbn. intros [<-|[<-|[<-|[]]]]; reflexivity. Qed.

Lemma exponent_inky ex t : exponent ex t -> forallb inky t = true.
Proof.
  destruct ex as [(sg, ds)|]; cbn [exponent]; [|intros ->; reflexivity]. intros (S & D & _ & e & E & ->).
  cbn [forallb]. rewrite forallb_app, (sign_inky _ S), (digits_inky _ D). cbn in E. destruct E as [<-|[<-|[]]]; reflexivity.
Qed.

Lemma words_inky (ws : list bytes) w : forallb (fun w => match w with [] => false | _ => forallb inky w end) ws = true -> In w ws ->
  w <> [] /\ forallb inky w = true.
Proof. intros H I. rewrite forallb_forall in H. specialize (H w I). destruct w; [discriminate H|]. split; [discriminate|exact H]. Qed.

Lemma spelled_inky f t : spelled f t -> t <> [] /\ forallb inky t = true.
Proof.
  assert (NE : forall a b : bytes, b <> [] -> a ++ b <> []) by (intros a b N E; apply app_eq_nil in E; tauto).
  intros [w I|w I|w I|sg ds S D N|ds v B|ds v B|sg ip fp ex t' S I F N X|sg ip ex t' S I N X|w I| |w I].
  1-3, 9, 11: (eapply words_inky; [|exact I]; vm_compute; reflexivity).
  - split; [apply NE; exact N|]. rewrite forallb_app, (sign_inky _ S), (digits_inky _ D). reflexivity.
  - apply in_base_inky in B as [_ B]. split; [discriminate|]. exact B.
  - apply in_base_inky in B as [_ B]. split; [discriminate|]. exact B.
  - split; [apply NE, NE; discriminate|]. rewrite !forallb_app, (sign_inky _ S), (digits_inky _ I), (digits_inky _ F), (exponent_inky _ _ X). reflexivity.
  - split; [apply NE; intros E; apply app_eq_nil in E; tauto|]. rewrite !forallb_app, (sign_inky _ S), (digits_inky _ I), (exponent_inky _ _ X). reflexivity.
  - split; [discriminate|reflexivity].
Qed.

(** ** Telling the forms apart *)

Definition nch (c : ascii) : bool := is_digit c || aeqb c "+" || aeqb c "-".
Definition fch (c : ascii) : bool := nch c || aeqb c "." || aeqb c "e" || aeqb c "E".

Lemma digits_nch ds : digits ds -> forallb nch ds = true.
Proof. rewrite digits_b, !forallb_forall. intros H c I. unfold nch. rewrite (H c I). reflexivity. Qed.
Lemma sign_nch sg : In sg signs -> forallb nch sg = true.
Proof. cbn. intros [<-|[<-|[<-|[]]]]; reflexivity. Qed.
Lemma nch_fch s : forallb nch s = true -> forallb fch s = true.
Proof. rewrite !forallb_forall. intros H c I. unfold fch. rewrite (H c I). reflexivity. Qed.
Lemma int_nch sg ds : In sg signs -> digits ds -> forallb nch (sg ++ ds) = true.
Proof. intros S D. rewrite forallb_app, (sign_nch _ S), (digits_nch _ D). reflexivity. Qed.

Lemma float_fch sg ip fp ex s : spelled (FFloat sg ip fp ex) s -> forallb fch s = true /\ forallb nch s = false.
Proof.
  assert (X : forall ex t, exponent ex t -> forallb fch t = true /\ (ex <> None -> forallb nch t = false)).
  { intros [(es, ed)|] t; cbn [exponent]; [|intros ->; split; [reflexivity|congruence]]. intros (S & D & _ & e & E & ->).
    cbn [forallb]. rewrite (nch_fch _ (int_nch _ _ S D)). cbn in E. destruct E as [<-|[<-|[]]]; split; reflexivity. }
  intros S. inversion S as [| | | | | |? ? ? ? t S1 S2 S3 S4 S5|? ? ? t S1 S2 S3 S5| | |]; subst.
  - destruct (X _ _ S5) as [X1 _]. rewrite !forallb_app, X1, (nch_fch _ (sign_nch _ S1)), (nch_fch _ (digits_nch _ S2)), (nch_fch _ (digits_nch _ S3)), (sign_nch _ S1), (digits_nch _ S2).
    split; reflexivity.
  - destruct (X _ _ S5) as [X1 X2]. rewrite !forallb_app, X1, X2, (nch_fch _ (sign_nch _ S1)), (nch_fch _ (digits_nch _ S2)), (sign_nch _ S1), (digits_nch _ S2) by discriminate.
    split; reflexivity.
Qed.

Lemma not_word (p : bytes -> bool) (r : re) (f : form) ws : (forall s, rmatch r s = true <-> spelled f s) -> (forall s, spelled f s -> In s ws) ->
  forallb (fun w => negb (p w)) ws = true -> forall s, p s = true -> rmatch r s = false.
Proof.
  intros A B C s P. destruct (rmatch r s) eqn:E; [|reflexivity]. apply A, B in E. rewrite forallb_forall in C. specialize (C s E). rewrite P in C. discriminate C.
Qed.

Lemma null_words s : spelled FNull s -> In s [s2b "null"; s2b "Null"; s2b "NULL"; s2b "~"].
Proof. intros S. inversion S. assumption. Qed.
Lemma true_words s : spelled FTrue s -> In s [s2b "true"; s2b "True"; s2b "TRUE"].
Proof. intros S. inversion S. assumption. Qed.
Lemma false_words s : spelled FFalse s -> In s [s2b "false"; s2b "False"; s2b "FALSE"].
Proof. intros S. inversion S. assumption. Qed.

Lemma not_words (p : bytes -> bool) :
  forallb (fun w => negb (p w)) ([s2b "null"; s2b "Null"; s2b "NULL"; s2b "~"] ++ [s2b "true"; s2b "True"; s2b "TRUE"] ++ [s2b "false"; s2b "False"; s2b "FALSE"]) = true ->
  forall s, p s = true -> rmatch re_null s = false /\ rmatch re_true s = false /\ rmatch re_false s = false.
Proof.
  rewrite !forallb_app. intros H s P. apply andb_true_iff in H as [H1 H]. apply andb_true_iff in H as [H2 H3].
  split; [exact (not_word p _ _ _ spell_null null_words H1 s P)|]. split; [exact (not_word p _ _ _ spell_true true_words H2 s P)|exact (not_word p _ _ _ spell_false false_words H3 s P)].
Qed.

Lemma int10_nch s : rmatch re_int10 s = true -> forallb nch s = true.
Proof. intros M. apply spell_int in M as (sg & ds & -> & S & D & _). apply int_nch; assumption. Qed.

Lemma false_of (b : bool) (P : Prop) : (b = true -> P) -> ~ P -> b = false.
Proof. destruct b; intuition. Qed.

(** ** Values *)

Lemma skip_sign sg t : In sg signs -> match t with [] => True | c :: _ => is_digit c = true \/ c = "."%char end ->
  take_sign (sg ++ t) = (minus sg, t).
Proof.
  intros S T. cbn in S. destruct S as [<-|[<-|[<-|[]]]]; [|reflexivity|reflexivity]. cbn [app]. destruct t as [|c t]; [reflexivity|].
  cbn [take_sign]. assert (E : aeqb c "-" = false /\ aeqb c "+" = false).
  { destruct T as [T| ->]; [apply digit_not_special in T; tauto|split; reflexivity]. }
  destruct E as [-> ->]. reflexivity.
Qed.

Lemma digits_head ds t : ds <> [] -> digits ds -> match ds ++ t with [] => True | c :: _ => is_digit c = true \/ c = "."%char end.
Proof. intros N D. destruct ds as [|c ds]; [congruence|]. cbn. left. apply digits_b in D. cbn in D. apply andb_true_iff in D. tauto. Qed.

Definition ends (b : bytes) : Prop := match b with [] => True | c :: _ => is_space c = true end.
Lemma blank_ends b : forallb is_space b = true -> ends b.
Proof. destruct b; cbn; [auto|]. intros H. apply andb_true_iff in H. tauto. Qed.
Lemma ends_dot b : ends b -> is_dot_or_end b.
Proof. destruct b as [|c b]; cbn; [auto|]. unfold is_space, is_digit. lia. Qed.

Lemma decimal_dec ds : digits ds -> decimal ds = Z.of_N (dec_value ds).
Proof. apply P_Convert.numeral_dec. Qed.

Lemma strtoll_value sg ds b : In sg signs -> digits ds -> ds <> [] -> ends b ->
  let v := (if minus sg then - decimal ds else decimal ds)%Z in
  strtoll10 (sg ++ ds ++ b) = if (v <? - 2^63)%Z then ((- 2^63)%Z, true) else if (2^63 - 1 <? v)%Z then ((2^63 - 1)%Z, true) else (v, false).
Proof.
  intros S D N E. unfold strtoll10. rewrite skip_sign by (auto; apply digits_head; auto).
  rewrite span_digits by (auto using ends_dot; apply digits_b; exact D). rewrite decimal_dec by exact D. reflexivity.
Qed.

Lemma strtoull_value sg ds b : In sg signs -> digits ds -> ds <> [] -> ends b -> minus sg = false -> (decimal ds < 2^64)%Z ->
  Z.of_N (strtoull10 (sg ++ ds ++ b)) = decimal ds.
Proof.
  intros S D N E M L. unfold strtoull10. rewrite skip_sign by (auto; apply digits_head; auto).
  rewrite span_digits by (auto using ends_dot; apply digits_b; exact D). rewrite M, decimal_dec in * by exact D.
  destruct (N.ltb_spec (dec_value ds) (2^64)); lia.
Qed.

Lemma in_base_value b (isd : ascii -> bool) ds v t : (forall c, isd c = true <-> exists v, digit_of c v /\ (v < b)%Z) -> (0 < b)%Z ->
  (forall c, is_space c = true -> isd c = false) -> in_base b ds v -> ends t ->
  strtoull_base (Z.to_N b) isd (ds ++ t) = saturate64 (Z.to_N v) /\ (0 <= v)%Z.
Proof.
  intros HD HB HS I E. unfold strtoull_base.
  assert (F : forallb isd ds = true) by (eapply proj2; apply (in_base_digits b isd HD); eauto).
  rewrite span_all; [|exact F|destruct t as [|c t]; [reflexivity|]; cbn in E; rewrite (HS c E); reflexivity].
  clear F E t.
  assert (K : fold_left (fun a c => Z.to_N b * a + xdigit_val c) ds 0 = Z.to_N v /\ (0 <= v)%Z).
  { induction I as [c v D L|ds v c w I [IH P] D L]; apply digit_of_val in D as [D D'].
    - cbn [fold_left]. split; lia.
    - rewrite fold_left_app. cbn [fold_left]. rewrite IH. split; [|nia]. rewrite Z2N.inj_add, Z2N.inj_mul by nia. f_equal. lia. }
  destruct K as [-> P]. split; [reflexivity|exact P].
Qed.

Lemma read_exp_value ex t b : exponent ex t -> ends b ->
  read_exp (t ++ b) = match ex with None => 0%Z | Some (es, ed) => (if minus es then - decimal ed else decimal ed)%Z end.
Proof.
  intros X E. destruct ex as [(sg, ds)|]; cbn [exponent] in X.
  - destruct X as (S & D & N & e & I & ->). cbn [app read_exp].
    assert ((aeqb e "e" || aeqb e "E")%bool = true) as -> by (cbn in I; destruct I as [<-|[<-|[]]]; reflexivity).
    rewrite <- app_assoc, skip_sign by (auto; apply digits_head; auto).
    rewrite span_digits by (auto using ends_dot; apply digits_b; exact D). rewrite decimal_dec by exact D. reflexivity.
  - subst t. cbn [app]. destruct b as [|c b]; [reflexivity|]. cbn in E. cbn [read_exp].
    assert (S : forallb (fun c => implb (is_space c) (negb (aeqb c "e" || aeqb c "E"))) all_bytes = true) by (vm_compute; reflexivity).
    pose proof (sweep _ S c) as T. cbv beta in T. rewrite E in T. cbn [implb] in T. apply negb_true_iff in T. rewrite T. reflexivity.
Qed.

Lemma exponent_head ex t b : exponent ex t -> ends b -> is_dot_or_end (t ++ b) /\ match t ++ b with [] => True | c :: _ => aeqb c "." = false end.
Proof.
  intros X E. destruct ex as [(sg, ds)|]; cbn [exponent] in X.
  - destruct X as (S & D & N & e & I & ->). cbn in I. destruct I as [<-|[<-|[]]]; split; reflexivity.
  - subst t. cbn [app]. split; [apply ends_dot; exact E|]. destruct b as [|c b]; [exact I|]. cbn in E.
    apply aeqb_neq. intros ->. discriminate E.
Qed.

Lemma strtod_value sg ip fp ex s b : spelled (FFloat sg ip fp ex) s -> ends b ->
  strtod (s ++ b) = dec_to_d (minus sg) (dec_value (ip ++ fp))
    ((match ex with None => 0 | Some (es, ed) => if minus es then - decimal ed else decimal ed end) - Z.of_nat (List.length fp))%Z.
Proof.
  intros S E. destruct (spelled_inky _ _ S) as [NE INK].
  assert (SK : skip_space (s ++ b) = s ++ b).
  { apply (skip_blank [] (s ++ b)); [reflexivity|]. destruct s as [|c s]; [congruence|]. cbn in INK |- *. unfold inky in INK.
    destruct (is_space c); [discriminate INK|reflexivity]. }
  unfold strtod. rewrite SK. clear SK NE INK.
  inversion S as [| | | | | |? ? ? ? t S1 S2 S3 S4 S5|? ? ? t S1 S2 S3 S5| | |]; subst.
  - rewrite <- !app_assoc. rewrite skip_sign; [|exact S1|destruct ip as [|c ip]; cbn; [auto|]; left; apply digits_b in S2; cbn in S2; apply andb_true_iff in S2; tauto].
    rewrite span_digits; [|apply digits_b; exact S2|reflexivity]. cbn [s2b list_ascii_of_string app].
    change (aeqb "." ".") with true. cbv iota. destruct (exponent_head _ _ _ S5 E) as [H1 H2].
    rewrite span_digits; [|apply digits_b; exact S3|exact H1].
    rewrite (read_exp_value _ _ _ S5 E). destruct (ip ++ fp); [congruence|reflexivity].
  - rewrite <- !app_assoc. rewrite skip_sign; [|exact S1|apply digits_head; auto]. destruct (exponent_head _ _ _ S5 E) as [H1 H2].
    rewrite span_digits; [|apply digits_b; exact S2|exact H1]. rewrite <- (read_exp_value _ _ _ S5 E).
    assert (M : match t ++ b with [] => ([], t ++ b) | c :: u => if aeqb c "." then span is_digit u else ([], t ++ b) end = ([], t ++ b)).
    { destruct (t ++ b) as [|c u]; [reflexivity|]. rewrite H2. reflexivity. }
    rewrite M, app_nil_r. destruct ip as [|c ip]; [congruence|reflexivity].
Qed.

Lemma dec_to_d_nearest neg D E : nearest neg (Z.of_N D) E (dec_to_d neg D E).
Proof.
  unfold nearest. cbv zeta. destruct D as [|p].
  - cbn [dec_to_d Z.of_N]. rewrite Rmult_0_l, Rmult_0_r, round_0, Rabs_R0 by (apply valid_rnd_N).
    rewrite Rlt_bool_true by apply bpow_gt_0. split; [reflexivity|]. cbn. destruct neg; auto.
  - pose proof (dec_to_d_correct neg (Npos p) E ltac:(reflexivity)) as K. cbv zeta in K.
    replace ((if neg then -1 else 1) * (IZR (Z.of_N (N.pos p)) * bpow radix10 E))%R with
      (if neg then - (IZR (Z.of_N (N.pos p)) * bpow radix10 E) else IZR (Z.of_N (N.pos p)) * bpow radix10 E)%R by (destruct neg; ring).
    unfold rnd53 in K. cbn [round_mode] in K. destruct K as [K1 K2]. split; [exact K1|].
    destruct (Rlt_bool _ _); [exact K2|]. rewrite K2. destruct neg; reflexivity.
Qed.

(** ** Theorem: a text that spells a scalar is classified as that scalar, with its value,
    whenever the value fits; white space around it does not matter.  With a stale errno the
    largest signed integer arrives as an unsigned one. *)
Theorem C34_recognised_partial : forall stale f a t b,
  blank_text a -> blank_text b -> spelled f t -> (exists g, worth f g) ->
  worth f (guess_scalar stale (a ++ t ++ b))
  \/ (stale = true /\ exists sg ds, f = FInt sg ds /\ worth f (GInt (2^63 - 1)) /\ guess_scalar stale (a ++ t ++ b) = GUns (2^63 - 1)).
Proof.
  intros stale f a t b A B S W. apply blank_b in A, B. destruct (spelled_inky _ _ S) as [NE INK].
  destruct (trim_text a t b A B NE INK) as (T1 & T2 & T3). unfold guess_scalar. rewrite T1, T2, T3. clear T1 T2 T3 NE INK A.
  pose proof (blank_ends _ B) as EB. clear B.
  destruct f as [| | |sg ds|v|v|sg ip fp ex|neg|].
  - left. rewrite (proj2 (spell_null t) S). constructor.
  - left. apply true_words in S. cbn [In] in S. destruct S as [<-|[<-|[<-|[]]]]; vm_compute; constructor.
  - left. apply false_words in S. cbn [In] in S. destruct S as [<-|[<-|[<-|[]]]]; vm_compute; constructor.
  - inversion S as [| | |? ? S1 S2 S3| | | | | | |]; subst.
    destruct (not_words (forallb fch) ltac:(vm_compute; reflexivity) _ (nch_fch _ (int_nch _ _ S1 S2))) as (-> & -> & ->).
    assert (rmatch re_int10 (sg ++ ds) = true) as -> by (apply spell_int; eauto 8).
    rewrite <- app_assoc, strtoll_value by auto. cbv zeta. set (z := (if minus sg then - decimal ds else decimal ds)%Z).
    destruct W as [g W]. inversion W as [| | |? ? ? E R|? ? n M E R| | | | |]; subst.
    + fold z in R. destruct (Z.ltb_spec z (- 2^63)); [lia|]. destruct (Z.ltb_spec (2^63 - 1) z); [lia|]. rewrite orb_false_r.
      destruct (Z.eqb_spec z (2^63 - 1)) as [EZ|_]; [|left; cbn [andb]; constructor; auto]. destruct stale; [|left; cbn [andb]; constructor; auto].
      right. split; [reflexivity|]. exists sg, ds. split; [reflexivity|]. fold z in W. rewrite EZ in W. split; [exact W|]. cbn [andb]. f_equal.
      assert (M : minus sg = false).
      { destruct (minus sg) eqn:M; [|reflexivity]. unfold z in EZ. rewrite decimal_dec in EZ by exact S2. lia. }
      unfold z in EZ. rewrite M in EZ.
      pose proof (strtoull_value sg ds b S1 S2 S3 EB M ltac:(lia)). lia.
    + left. assert (Z1 : z = decimal ds) by (unfold z; rewrite M; reflexivity). rewrite Z1.
      destruct (Z.ltb_spec (decimal ds) (- 2^63)); [lia|]. destruct (Z.ltb_spec (2^63 - 1) (decimal ds)); [|lia]. rewrite orb_true_r.
      replace (2^63 - 1 =? 2^63 - 1)%Z with true by reflexivity. cbn [andb]. apply w_uns; auto. apply strtoull_value; auto. lia.
  - left. inversion S as [| | | |ds ? S1| | | | | |]; subst.
    destruct (not_words (fun s => beqb (firstn 2 s) (s2b "0o")) ltac:(vm_compute; reflexivity) (s2b "0o" ++ ds) eq_refl) as (-> & -> & ->).
    assert (rmatch re_int10 (s2b "0o" ++ ds) = false) as -> by (eapply false_of; [apply int10_nch|cbn; discriminate]).
    assert (rmatch re_int8 (s2b "0o" ++ ds) = true) as -> by (apply spell_oct; eauto).
    cbn [s2b list_ascii_of_string app skipn].
    destruct (in_base_value 8 _ ds v b is_odigit_spec ltac:(lia) ltac:(unfold is_space, is_odigit; lia) S1 EB) as [E P].
    change 8 with (Z.to_N 8). rewrite E. destruct W as [g W]. inversion W as [| | | | |? n E' L| | | |]; subst.
    apply w_oct; auto. unfold saturate64. destruct (N.ltb_spec (Z.to_N (Z.of_N n)) (2^64)); lia.
  - left. inversion S as [| | | | |ds ? S1| | | | |]; subst.
    destruct (not_words (fun s => beqb (firstn 2 s) (s2b "0x")) ltac:(vm_compute; reflexivity) (s2b "0x" ++ ds) eq_refl) as (-> & -> & ->).
    assert (rmatch re_int10 (s2b "0x" ++ ds) = false) as -> by (eapply false_of; [apply int10_nch|cbn; discriminate]).
    assert (rmatch re_int8 (s2b "0x" ++ ds) = false) as ->.
    { eapply false_of; [intros M; apply spell_oct in M; exact M|]. intros (v' & ds' & E & _). discriminate E. }
    assert (rmatch re_int16 (s2b "0x" ++ ds) = true) as -> by (apply spell_hex; eauto).
    cbn [s2b list_ascii_of_string app skipn].
    destruct (in_base_value 16 _ ds v b is_xdigit_spec ltac:(lia) ltac:(unfold is_space, is_xdigit, is_digit; lia) S1 EB) as [E P].
    change 16 with (Z.to_N 16). rewrite E. destruct W as [g W]. inversion W as [| | | | | |? n E' L| | |]; subst.
    apply w_hex; auto. unfold saturate64. destruct (N.ltb_spec (Z.to_N (Z.of_N n)) (2^64)); lia.
  - left. destruct (float_fch _ _ _ _ _ S) as [F1 F2].
    destruct (not_words (forallb fch) ltac:(vm_compute; reflexivity) _ F1) as (-> & -> & ->).
    assert (rmatch re_int10 t = false) as -> by (eapply false_of; [apply int10_nch|rewrite F2; discriminate]).
    assert (rmatch re_int8 t = false) as ->.
    { eapply false_of; [intros M; apply spell_oct in M; exact M|]. intros (v' & ds' & -> & _). discriminate F1. }
    assert (rmatch re_int16 t = false) as ->.
    { eapply false_of; [intros M; apply spell_hex in M; exact M|]. intros (v' & ds' & -> & _). discriminate F1. }
    assert (rmatch re_float t = true) as -> by (apply spell_float; left; eauto).
    rewrite (strtod_value _ _ _ _ _ _ S EB). constructor. rewrite decimal_dec; [apply dec_to_d_nearest|].
    inversion S; subst; [apply Forall_app; auto|rewrite app_nil_r; auto].
  - left. inversion S as [| | | | | | | |w I| |]; subst; [|vm_compute; constructor]. cbn [In] in I. destruct I as [<-|[<-|[<-|[<-|[]]]]]; vm_compute; constructor.
  - left. inversion S as [| | | | | | | | | |w I]; subst. cbn [In] in I. destruct I as [<-|[<-|[<-|[]]]]; vm_compute; constructor.
Qed.
Print Assumptions C34_recognised_partial.

(** A text that, trimmed, spells no scalar stays a string with the same bytes. *)
Theorem C34_other_text_kept : forall stale s, ~ In (bchr 0) s ->
  (forall a t b f, s = a ++ t ++ b -> blank_text a -> blank_text b -> ~ spelled f t) ->
  guess_scalar stale s = GText s.
Proof.
  intros stale s N H. assert (C : c_str s = s).
  { clear H. induction s as [|c s IH]; [reflexivity|]. cbn [c_str]. assert (aeqb c (bchr 0) = false) as -> by (apply aeqb_neq; intros ->; apply N; left; reflexivity).
    rewrite IH; [reflexivity|]. intros I. apply N. right. exact I. }
  unfold guess_scalar. rewrite C.
  assert (SP : exists a b, s = a ++ drop_trailing (skip_space s) ++ b /\ blank_text a /\ blank_text b).
  { assert (L : forall s, exists a, s = a ++ skip_space s /\ forallb is_space a = true).
    { clear. intros s. unfold skip_space. induction s as [|c s (a & E & F)]; [exists []; split; reflexivity|]. cbn [span].
      destruct (is_space c) eqn:Q; [|exists []; split; reflexivity]. destruct (span is_space s) as [x y]. cbn [snd] in *.
      exists (c :: a). cbn. rewrite Q, <- E. auto. }
    destruct (L s) as (a & E & F). destruct (L (rev (skip_space s))) as (b & E2 & F2). exists a, (rev b). rewrite !blank_b, forallb_rev.
    split; [|auto]. rewrite E at 1. f_equal. unfold drop_trailing. rewrite <- rev_app_distr, <- E2. symmetry. apply rev_involutive. }
  destruct SP as (a & b & E & A & B). set (t := drop_trailing (skip_space s)) in *. clearbody t.
  assert (K : forall f, ~ spelled f t) by (intros f; eapply H; eauto).
  assert (rmatch re_null t = false) as -> by (eapply false_of; [apply spell_null|apply K]).
  assert (rmatch re_true t = false) as -> by (eapply false_of; [apply spell_true|apply K]).
  assert (rmatch re_false t = false) as -> by (eapply false_of; [apply spell_false|apply K]).
  assert (rmatch re_int10 t = false) as ->.
  { eapply false_of; [apply spell_int|]. intros (sg & ds & -> & S & D & M). apply (K (FInt sg ds)). constructor; auto. }
  assert (rmatch re_int8 t = false) as ->.
  { eapply false_of; [apply spell_oct|]. intros (v & ds & -> & S). apply (K (FOct v)). constructor; auto. }
  assert (rmatch re_int16 t = false) as ->.
  { eapply false_of; [apply spell_hex|]. intros (v & ds & -> & S). apply (K (FHex v)). constructor; auto. }
  assert (rmatch re_float t = false) as ->.
  { eapply false_of; [apply spell_float|]. intros [(sg & ip & fp & ex & S)|(sg & ds & S)]; apply (K _ S). }
  assert (rmatch re_inf t = false) as -> by (eapply false_of; [apply spell_inf|intros (neg & S); apply (K _ S)]).
  assert (rmatch re_nan t = false) as -> by (eapply false_of; [apply spell_nan|apply K]).
  reflexivity.
Qed.
Print Assumptions C34_other_text_kept.

(** Cases that meet the hypotheses. *)
Example recognised_demo : spelled (FFloat (s2b "-") (s2b "1") (s2b "25") (Some (s2b "+", s2b "2"))) (s2b "-1.25E+2")
  /\ guess_scalar true (s2b "  -1.25E+2") = GFlt (S754_finite true 8796093022208000 (-46)).
Proof.
  split; [|vm_compute; reflexivity].
  apply (sp_float_dot (s2b "-") (s2b "1") (s2b "25") (Some (s2b "+", s2b "2")) (s2b "E+2")); [cbn; auto|apply digits_b; reflexivity|apply digits_b; reflexivity|discriminate|].
  split; [cbn; auto|]. split; [apply digits_b; reflexivity|]. split; [discriminate|]. exists "E"%char. split; [cbn; auto|reflexivity].
Qed.

Example hex_demo : spelled (FHex 255) (s2b "0xFf") /\ worth (FHex 255) (GUns 255).
Proof. split; [apply (sp_hex (s2b "Ff") 255); apply (ib_more 16 (s2b "F") 15 "f" 15); [apply ib_one; [cbn; tauto|lia]|cbn; tauto|lia]|constructor; lia]. Qed.

(** Not a number: a sign alone, or two points. *)
Example kept_demo : guess_scalar false (s2b "1.2.3") = GText (s2b "1.2.3") /\ guess_scalar false (s2b " - ") = GText (s2b " - ").
Proof. split; vm_compute; reflexivity. Qed.

(** Integers that do not fit are replaced by the nearest that does. *)
Theorem C34_overflow_refuted : exists s t, s = s2b "18446744073709551616" /\ guess_scalar false s = GUns 18446744073709551615 /\
  t = s2b "-9223372036854775809" /\ guess_scalar false t = GInt (-9223372036854775808).
Proof. eexists _, _. split; [reflexivity|]. split; [vm_compute; reflexivity|]. split; [reflexivity|]. vm_compute. reflexivity. Qed.
Print Assumptions C34_overflow_refuted.

(** A text with a NUL inside is taken for the number before the NUL. *)
Theorem C34_nul_refuted : exists s, s = s2b "12" ++ bchr 0 :: s2b "x" /\ guess_scalar false s = GInt 12.
Proof. eexists. split; [reflexivity|]. vm_compute. reflexivity. Qed.
Print Assumptions C34_nul_refuted.

(** YAML 1.2, section 10.3.2, also spells not-a-number ".NaN" and negative infinity
    "-.Inf" and "-.INF": these stay strings. *)
Theorem C34_yaml_refuted : exists s t, s = s2b ".NaN" /\ guess_scalar false s = GText s /\ t = s2b "-.Inf" /\ guess_scalar false t = GText t.
Proof. exists (s2b ".NaN"), (s2b "-.Inf"). repeat split; vm_compute; reflexivity. Qed.
Print Assumptions C34_yaml_refuted.
