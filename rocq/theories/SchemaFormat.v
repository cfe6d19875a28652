(** The formats that src/Schema.cc checks, and a reading of the POSIX expressions it checks them with. *)
From Verif Require Import Base Value ParserInput Regex Schema SchemaSem SchemaProofs EventBufferProofs.
Open Scope N_scope.

(** ** Expressions *)

Definition lit (c : ascii) : re := RChr (fun x => Ascii.eqb x c).
Definition cls (a b : ascii) : re := RChr (fun x => (bval a <=? bval x) && (bval x <=? bval b))%bool.

(** POSIX extended expressions (XBD 9.4) between "^" and "$" made of single characters, ranges "[a-b]",
    groups and "?".  Anything else is not read. *)
Definition special (c : ascii) : bool := List.existsb (Ascii.eqb c) (s2b "^$.[]()|*+?{}\").
Fixpoint ere_seq (fuel : nat) (s : bytes) : option (re * bytes) :=
  match fuel with
  | O => None
  | S f =>
      let post (r : re) (s : bytes) :=
        let '(r, s) := match s with c :: t => if Ascii.eqb c "?" then (RAlt r REps, t) else (r, s) | [] => (r, s) end in
        match ere_seq f s with Some (q, s) => Some (RSeq r q, s) | None => None end in
      match s with
      | [] => Some (REps, [])
      | c :: t =>
          if (Ascii.eqb c ")" || Ascii.eqb c "$")%bool then Some (REps, s)
          else if Ascii.eqb c "(" then
            match ere_seq f t with
            | Some (r, e :: t) => if Ascii.eqb e ")" then post r t else None
            | _ => None
            end
          else if Ascii.eqb c "[" then
            match t with
            | a :: h :: b :: e :: t => if (Ascii.eqb h "-" && Ascii.eqb e "]")%bool then post (cls a b) t else None
            | _ => None
            end
          else if special c then None else post (lit c) t
      end
  end.
Definition ere (p : bytes) : option re :=
  match p with
  | c :: t => if Ascii.eqb c "^" then
                match ere_seq (List.length t) t with
                | Some (r, [e]) => if Ascii.eqb e "$" then Some r else None
                | _ => None
                end
              else None
  | [] => None
  end.

(** A library that reads these expressions as POSIX says. *)
Definition posix (rx : bytes -> option (bytes -> bool)) : Prop :=
  forall p r, ere p = Some r -> exists f, rx p = Some f /\ forall s, f s = true <-> lang r s.

(** ** Languages of sequences *)

Lemma lang_eps s : lang REps s <-> s = [].
Proof. split; [inversion 1; reflexivity|intros ->; constructor]. Qed.
Lemma lang_chr f q s : lang (RSeq (RChr f) q) s <-> exists c t, s = c :: t /\ f c = true /\ lang q t.
Proof.
  split.
  - intros L. inversion L as [| |? ? a b A B E E'| | | |]; subst. inversion A; subst. exists c, b. auto.
  - intros (c & t & -> & F & L). change (c :: t) with ([c] ++ t). constructor; [constructor|]; assumption.
Qed.
Lemma lang_opt r q s : lang (RSeq (RAlt r REps) q) s <-> lang q s \/ lang (RSeq r q) s.
Proof.
  split.
  - intros L. inversion L as [| |? ? a b A B E E'| | | |]; subst. inversion A as [| | |? ? ? A'|? ? ? A'| |]; subst; [right; constructor; assumption|]. apply lang_eps in A'. subst a. left. exact B.
  - intros [L|L].
    + apply (l_seq _ _ [] s); [apply l_alt2; constructor|exact L].
    + inversion L as [| |? ? a b A B E E'| | | |]; subst. constructor; [apply l_alt1; exact A|exact B].
Qed.
Lemma lang_assoc r q p s : lang (RSeq (RSeq r q) p) s <-> lang (RSeq r (RSeq q p)) s.
Proof.
  split; intros L.
  - inversion L as [| |? ? a b A B E E'| | | |]; subst. inversion A as [| |? ? a1 a2 A1 A2 F F'| | | |]; subst. rewrite <- app_assoc. repeat constructor; assumption.
  - inversion L as [| |? ? a b A B E E'| | | |]; subst. inversion B as [| |? ? b1 b2 B1 B2 F F'| | | |]; subst. rewrite app_assoc. repeat constructor; assumption.
Qed.
Lemma lang_unit q s : lang (RSeq REps q) s <-> lang q s.
Proof.
  split; intros L; [|apply (l_seq _ _ [] s); [constructor|exact L]].
  inversion L as [| |? ? a b A B E E'| | | |]; subst. apply lang_eps in A. subst a. exact B.
Qed.

(** ** Digits *)

(** The decimal digit of a number below 10; numbers in two and in four digits. *)
Definition digit (n : N) : ascii := bchr (48 + n).
Definition two (n : N) : bytes := [digit (n / 10); digit (n mod 10)].
Definition four (n : N) : bytes := two (n / 100) ++ two (n mod 100).

Definition dchr (k : N) : re := cls "0" (digit k).
Lemma digit_val n : n < 10 -> bval (digit n) = 48 + n.
Proof. intros L. unfold digit. apply bval_bchr. lia. Qed.
Lemma dchr_spec k q s : k < 10 -> lang (RSeq (dchr k) q) s <-> exists n t, n <= k /\ s = digit n :: t /\ lang q t.
Proof.
  intros K. unfold dchr, cls. rewrite lang_chr. rewrite (digit_val k K). change (bval "0") with 48. split.
  - intros (c & t & -> & F & L). apply andb_true_iff in F as [F1 F2]. apply N.leb_le in F1, F2. exists (bval c - 48), t. split; [lia|]. split; [|exact L].
    f_equal. unfold digit. replace (48 + (bval c - 48)) with (bval c) by lia. symmetry. apply bchr_bval.
  - intros (n & t & N & -> & L). exists (digit n), t. split; [reflexivity|]. split; [|exact L]. rewrite digit_val by lia. apply andb_true_iff. rewrite !N.leb_le. lia.
Qed.
Lemma two_spec k q s : k < 10 -> lang (RSeq (dchr k) (RSeq (dchr 9) q)) s <-> exists n t, n < 10 * (k + 1) /\ s = two n ++ t /\ lang q t.
Proof.
  intros K. rewrite dchr_spec by exact K. split.
  - intros (a & t & A & -> & L). apply dchr_spec in L; [|lia]. destruct L as (b & u & B & -> & L). exists (10 * a + b), u. split; [lia|]. split; [|exact L].
    unfold two. rewrite (N.mul_comm 10 a), N.div_add_l, N.div_small, N.add_0_r by lia. rewrite (N.add_comm (a * 10)), N.mod_add, N.mod_small by lia. reflexivity.
  - intros (n & t & N & -> & L). exists (n / 10), (digit (n mod 10) :: t). split; [apply N.lt_succ_r, N.div_lt_upper_bound; lia|]. split; [reflexivity|].
    apply dchr_spec; [lia|]. exists (n mod 10), t. split; [pose proof (N.mod_lt n 10); lia|auto].
Qed.
Lemma four_spec q s : lang (RSeq (dchr 9) (RSeq (dchr 9) (RSeq (dchr 9) (RSeq (dchr 9) q)))) s <-> exists n t, n < 10000 /\ s = four n ++ t /\ lang q t.
Proof.
  rewrite two_spec by lia. split.
  - intros (a & t & A & -> & L). apply two_spec in L; [|lia]. destruct L as (b & u & B & -> & L). exists (100 * a + b), u. split; [lia|]. split; [|exact L].
    unfold four. rewrite (N.mul_comm 100 a), N.div_add_l, N.div_small, N.add_0_r by lia. rewrite (N.add_comm (a * 100)), N.mod_add, N.mod_small by lia. rewrite app_assoc. reflexivity.
  - intros (n & t & N & -> & L). exists (n / 100), (two (n mod 100) ++ t). split; [apply N.div_lt_upper_bound; lia|]. split; [unfold four; rewrite app_assoc; reflexivity|].
    apply two_spec; [lia|]. exists (n mod 100), t. split; [pose proof (N.mod_lt n 100); lia|auto].
Qed.
Lemma lit_spec c q s : lang (RSeq (lit c) q) s <-> exists t, s = c :: t /\ lang q t.
Proof.
  unfold lit. rewrite lang_chr. split.
  - intros (x & t & -> & F & L). apply Ascii.eqb_eq in F as ->. eauto.
  - intros (t & -> & L). exists c, t. rewrite Ascii.eqb_refl. auto.
Qed.

(** ** The three expressions *)

Definition date_expr : re := RSeq (dchr 9) (RSeq (dchr 9) (RSeq (dchr 9) (RSeq (dchr 9) (RSeq (lit "-") (RSeq (dchr 1) (RSeq (dchr 9) (RSeq (lit "-") (RSeq (dchr 3) (RSeq (dchr 9) REps))))))))).
Definition time_expr : re := RSeq (dchr 2) (RSeq (dchr 9) (RSeq (lit ":") (RSeq (dchr 5) (RSeq (dchr 9) (RSeq (lit ":") (RSeq (dchr 5) (RSeq (dchr 9) REps))))))).
Definition perhaps (r q : re) : re := RSeq (RAlt r REps) q.
Definition date_time_expr : re :=
  RSeq (dchr 9) (RSeq (dchr 9) (RSeq (dchr 9) (RSeq (dchr 9)
    (perhaps (RSeq (lit "-") (RSeq (dchr 1) (RSeq (dchr 9)
      (perhaps (RSeq (lit "-") (RSeq (dchr 3) (RSeq (dchr 9)
        (perhaps (RSeq (lit "T") (RSeq (dchr 9) (RSeq (dchr 9)
          (perhaps (RSeq (lit ":") (RSeq (dchr 9) (RSeq (dchr 9)
            (perhaps (RSeq (lit ":") (RSeq (dchr 9) (RSeq (dchr 9) REps))) REps)))) REps)))) REps)))) REps)))) (perhaps (lit "Z") REps))))).
Lemma date_read : ere date_re = Some date_expr. Proof. reflexivity. Qed.
Lemma time_read : ere time_re = Some time_expr. Proof. reflexivity. Qed.
Lemma date_time_read : ere date_time_re = Some date_time_expr. Proof. reflexivity. Qed.

Lemma date_lang s : lang date_expr s <-> exists y m d, y < 10000 /\ m < 20 /\ d < 40 /\ s = four y ++ "-"%char :: two m ++ "-"%char :: two d.
Proof.
  unfold date_expr. rewrite four_spec. split.
  - intros (y & t & Y & -> & L). apply lit_spec in L as (t' & -> & L). apply two_spec in L as (m & u & M & -> & L); [|lia].
    apply lit_spec in L as (u' & -> & L). apply two_spec in L as (d & v & D & -> & L); [|lia]. apply lang_eps in L as ->.
    exists y, m, d. rewrite app_nil_r. repeat split; auto; lia.
  - intros (y & m & d & Y & M & D & ->). eexists y, _. split; [exact Y|]. split; [reflexivity|]. apply lit_spec. eexists. split; [reflexivity|].
    apply two_spec; [lia|]. eexists m, _. split; [lia|]. split; [reflexivity|]. apply lit_spec. eexists. split; [reflexivity|].
    apply two_spec; [lia|]. exists d, []. split; [lia|]. rewrite app_nil_r. split; [reflexivity|constructor].
Qed.
Lemma time_lang s : lang time_expr s <-> exists h m k, h < 30 /\ m < 60 /\ k < 60 /\ s = two h ++ ":"%char :: two m ++ ":"%char :: two k.
Proof.
  unfold time_expr. rewrite two_spec by lia. split.
  - intros (y & t & Y & -> & L). apply lit_spec in L as (t' & -> & L). apply two_spec in L as (m & u & M & -> & L); [|lia].
    apply lit_spec in L as (u' & -> & L). apply two_spec in L as (d & v & D & -> & L); [|lia]. apply lang_eps in L as ->.
    exists y, m, d. rewrite app_nil_r. repeat split; auto; lia.
  - intros (y & m & d & Y & M & D & ->). eexists y, _. split; [lia|]. split; [reflexivity|]. apply lit_spec. eexists. split; [reflexivity|].
    apply two_spec; [lia|]. eexists m, _. split; [lia|]. split; [reflexivity|]. apply lit_spec. eexists. split; [reflexivity|].
    apply two_spec; [lia|]. exists d, []. split; [lia|]. rewrite app_nil_r. split; [reflexivity|constructor].
Qed.

(** A part that may be left out: a character, two digits, and what follows. *)
Definition part (c : ascii) (k : N) (R : bytes -> Prop) (s : bytes) : Prop := s = [] \/ exists n t, n < k /\ s = c :: two n ++ t /\ R t.
Lemma part_spec c k rest (R : bytes -> Prop) : k < 10 -> (forall s, lang rest s <-> R s) ->
  forall s, lang (perhaps (RSeq (lit c) (RSeq (dchr k) (RSeq (dchr 9) rest))) REps) s <-> part c (10 * (k + 1)) R s.
Proof.
  intros K E s. unfold perhaps. rewrite lang_opt, lang_eps.
  assert (X : lang (RSeq (RSeq (lit c) (RSeq (dchr k) (RSeq (dchr 9) rest))) REps) s <-> lang (RSeq (lit c) (RSeq (dchr k) (RSeq (dchr 9) rest))) s).
  { split; intros L.
    - inversion L as [| |? ? a b A B F F'| | | |]; subst. apply lang_eps in B as ->. rewrite app_nil_r. exact A.
    - rewrite <- (app_nil_r s). constructor; [exact L|constructor]. }
  rewrite X, lit_spec. unfold part. split.
  - intros [->|(t & -> & L)]; [auto|]. apply two_spec in L as (n & u & N & -> & L); [|exact K]. right. exists n, u. split; [exact N|]. split; [reflexivity|apply E, L].
  - intros [->|(n & t & N & -> & L)]; [auto|]. right. eexists. split; [reflexivity|]. apply two_spec; [exact K|]. exists n, t. split; [exact N|]. split; [reflexivity|apply E, L].
Qed.
Definition date_time_text (s : bytes) : Prop := exists y t z, y < 10000 /\ s = four y ++ t ++ z /\ (z = [] \/ z = s2b "Z") /\
  part "-" 20 (part "-" 40 (part "T" 100 (part ":" 100 (part ":" 100 (eq []))))) t.
Lemma date_time_lang s : lang date_time_expr s <-> date_time_text s.
Proof.
  assert (P : forall s, lang (perhaps (RSeq (lit "-") (RSeq (dchr 1) (RSeq (dchr 9)
      (perhaps (RSeq (lit "-") (RSeq (dchr 3) (RSeq (dchr 9)
        (perhaps (RSeq (lit "T") (RSeq (dchr 9) (RSeq (dchr 9)
          (perhaps (RSeq (lit ":") (RSeq (dchr 9) (RSeq (dchr 9)
            (perhaps (RSeq (lit ":") (RSeq (dchr 9) (RSeq (dchr 9) REps))) REps)))) REps)))) REps)))) REps)))) REps) s <->
    part "-" 20 (part "-" 40 (part "T" 100 (part ":" 100 (part ":" 100 (eq []))))) s).
  { apply (part_spec "-" 1); [lia|]. apply (part_spec "-" 3); [lia|]. apply (part_spec "T" 9); [lia|]. apply (part_spec ":" 9); [lia|]. apply (part_spec ":" 9); [lia|].
    intros t. rewrite lang_eps. split; intros ->; reflexivity. }
  assert (Z : forall z, lang (perhaps (lit "Z") REps) z <-> z = [] \/ z = s2b "Z").
  { intros z. unfold perhaps. rewrite lang_opt, lang_eps, lit_spec. split; [intros [->|(t & -> & L)]; [auto|apply lang_eps in L as ->; auto]|].
    intros [->| ->]; [auto|]. right. exists []. split; [reflexivity|constructor]. }
  unfold date_time_expr. rewrite four_spec. unfold date_time_text. split.
  - intros (y & t & Y & -> & L). unfold perhaps at 1 in L. inversion L as [| |? ? a b A B F F'| | | |]; subst. exists y, a, b. split; [exact Y|]. split; [reflexivity|].
    split; [apply Z, B|]. apply P. unfold perhaps at 1. rewrite <- (app_nil_r a). constructor; [exact A|constructor].
  - intros (y & t & z & Y & -> & Hz & Ht). exists y, (t ++ z). split; [exact Y|]. split; [reflexivity|]. unfold perhaps at 1. constructor; [|apply Z, Hz].
    apply P in Ht. unfold perhaps at 1 in Ht. inversion Ht as [| |? ? a b A B F F'| | | |]; subst. apply lang_eps in B as ->. rewrite app_nil_r. exact A.
Qed.
