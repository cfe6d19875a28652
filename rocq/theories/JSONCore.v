(** The JSON parser without the capacities of its growing arrays, and the proof that
    the capacities never matter.  Proof device only: the model is JSONParserC.v. *)
From Verif Require Import Base CNum Float FloatText ParserInput ParserInputProofs JSONParserC.
Open Scope N_scope.

(** lib/json/JSON_parser.c:93-109 as [jp], without stack_capacity and parse_buffer_capacity. *)
Record core := Core {
  k_state : jstate; k_before : jstate; k_type : jtype;
  k_escaped : bool; k_comment : bool; k_high : N;
  k_stack : list jmode; k_buf : bytes }.

(** Forget the capacities. *)
Definition erase (s : jp) : core :=
  Core (jp_state s) (jp_before s) (jp_type s) (jp_escaped s) (jp_comment s) (jp_high s) (jp_stack s) (jp_buf s).

(** Field updates. *)
Definition kset_state (s : core) x := Core x (k_before s) (k_type s) (k_escaped s) (k_comment s) (k_high s) (k_stack s) (k_buf s).
Definition kset_before (s : core) x := Core (k_state s) x (k_type s) (k_escaped s) (k_comment s) (k_high s) (k_stack s) (k_buf s).
Definition kset_type (s : core) x := Core (k_state s) (k_before s) x (k_escaped s) (k_comment s) (k_high s) (k_stack s) (k_buf s).
Definition kset_escaped (s : core) x := Core (k_state s) (k_before s) (k_type s) x (k_comment s) (k_high s) (k_stack s) (k_buf s).
Definition kset_comment (s : core) x := Core (k_state s) (k_before s) (k_type s) (k_escaped s) x (k_high s) (k_stack s) (k_buf s).
Definition kset_high (s : core) x := Core (k_state s) (k_before s) (k_type s) (k_escaped s) (k_comment s) x (k_stack s) (k_buf s).
Definition kset_stack (s : core) x := Core (k_state s) (k_before s) (k_type s) (k_escaped s) (k_comment s) (k_high s) x (k_buf s).
Definition kset_buf (s : core) x := Core (k_state s) (k_before s) (k_type s) (k_escaped s) (k_comment s) (k_high s) (k_stack s) x.

(** [jpush] and [buf_push] of JSONParserC.v, lib/json/JSON_parser.c:302-327, 461-466. *)
Definition kpush (s : core) (m : jmode) : core := kset_stack s (m :: k_stack s).
Definition kbuf_push (s : core) (c : ascii) : res core := Ok (kset_buf s (c :: k_buf s)).
(** Callbacks and outcome, as [jout]. *)
Definition kout := (list jev * res (core * bool))%type.

(** [jpop] of JSONParserC.v, lib/json/JSON_parser.c:332-344. *)
Definition kjpop (s : core) (m : jmode) : option core :=
  match k_stack s with
  | [] => None
  | x :: t => if jmode_eqb x m then Some (kset_stack s t) else None
  end.

(** [buf_clear] of JSONParserC.v, lib/json/JSON_parser.c:347-351. *)
Definition kbuf_clear (s : core) : core := kset_buf s [].

(** [buf_pop] of JSONParserC.v, lib/json/JSON_parser.c:353-358. *)
Definition kbuf_pop (s : core) : res core :=
  match k_buf s with [] => Abort | _ :: t => Ok (kset_buf s t) end.

(** [parse_buffer] of JSONParserC.v, lib/json/JSON_parser.c:479-522. *)
Definition kparse_buffer (s : core) : list jev * res core :=
  let t := rev (k_buf s) in
  match k_type s with
  | TNone => ([], Ok (kbuf_clear s))
  | TFloat => ([JFloat (strtod t)], Ok (kbuf_clear s))
  | TInteger => match sscanf_lld t with Some z => ([JInteger z], Ok (kbuf_clear s)) | None => ([], UB) end
  | TUnsigned => match sscanf_llu t with Some n => ([JUnsigned n], Ok (kbuf_clear s)) | None => ([], UB) end
  | TString => ([JString t], Ok (kbuf_clear s))
  | TNull => ([JNull], Ok (kbuf_clear s))
  | TTrue => ([JTrue], Ok (kbuf_clear s))
  | TFalse => ([JFalse], Ok (kbuf_clear s))
  end.

(** [decode_unicode] of JSONParserC.v, lib/json/JSON_parser.c:529-596. *)
Definition kdecode_unicode (s : core) : res (core * bool) :=
  match k_buf s with
  | h0 :: h1 :: h2 :: h3 :: _ :: _ :: rest =>
      if (16 <=? hex_of h3) || (16 <=? hex_of h2) || (16 <=? hex_of h1) || (16 <=? hex_of h0) then Abort else
      let uc := hex_of h3 * 4096 + hex_of h2 * 256 + hex_of h1 * 16 + hex_of h0 in
      let s := kset_buf s rest in
      let put s uc trail :=
        Ok (kset_buf s (rev (utf8_put uc trail) ++ rest), true) in
      if negb (k_high s =? 0) then
        if is_low uc then put (kset_high s 0) (N.shiftl (N.land (k_high s) 1023) 10 + N.land uc 1023 + 65536) 3%nat
        else Ok (s, false)
      else if uc <? 128 then put s uc 0%nat
      else if uc <? 2048 then put s uc 1%nat
      else if is_high uc then Ok (kset_high s uc, true)
      else if is_low uc then Ok (s, false)
      else put s uc 2%nat
  | _ => Abort
  end.

(** [add_escaped] of JSONParserC.v, lib/json/JSON_parser.c:598-637. *)
Definition kadd_escaped (s : core) (c : ascii) : res (core * bool) :=
  do s <- kbuf_pop (kset_escaped s false);
  let one c := do s <- kbuf_push s c; Ok (s, true) in
  if aeqb c "b" then one (bchr 8)
  else if aeqb c "f" then one (bchr 12)
  else if aeqb c "n" then one (bchr 10)
  else if aeqb c "r" then one (bchr 13)
  else if aeqb c "t" then one (bchr 9)
  else if aeqb c (bchr 34) then one (bchr 34)
  else if aeqb c "\" then one "\"%char
  else if aeqb c "/" then one "/"%char
  else if aeqb c "u" then do s <- kbuf_push s "\"; do s <- kbuf_push s "u"; Ok (s, true)
  else Ok (s, false).

(** [add_char] of JSONParserC.v, lib/json/JSON_parser.c:639-649. *)
Definition kadd_char (s : core) (c : ascii) (k : jclass) : res (core * bool) :=
  if k_escaped s then kadd_escaped s c
  else if k_comment s then Ok (s, true)
  else
    let white := match k with C_SPACE | C_WHITE => true | _ => false end in
    let none := match k_type s with TNone => true | _ => false end in
    if none && white then Ok (s, true) else do s <- kbuf_push s c; Ok (s, true).

(** [jassert], [yes] and [no] of JSONParserC.v. *)
Definition kjassert (b : bool) (s : core) : list jev * res core := if b then ([], Ok s) else ([], Abort).

Definition kyes (s : core) : kout := ([], Ok (s, true)).

Definition kno (s : core) : kout := ([], Ok (s, false)).

(** [jact] of JSONParserC.v, lib/json/JSON_parser.c:697-965. *)
Definition kjact (s : core) (a : jtr) : kout :=
  match a with
  | To q => kyes (kset_state s q)
  | AUC => after (quiet (kdecode_unicode s)) (fun '(s, ok) =>
             if ok then kyes (kset_state s (if k_high s =? 0 then SST else SD1)) else kno s)
  | AEX => kyes (kset_state (kset_escaped s true) SES)
  | AMX => kyes (kset_state (kset_type s TInteger) SMI)
  | AZX => kyes (kset_state (kset_type s TUnsigned) SZE)
  | AIX => kyes (kset_state (kset_type s TUnsigned) SIT)
  | ADE => after (kjassert (is_numty (k_type s)) s) (fun s => kyes (kset_state (kset_type s TFloat) SE1))
  | ADF => after (kjassert (is_numty (k_type s)) s) (fun s =>
           after (kjassert (match k_buf s with c :: _ => aeqb c "." | [] => false end) s) (fun s =>
             kyes (kset_state (kset_type s TFloat) SFX)))   (* decimal_point is "." *)
  | ASB => let s := kbuf_clear s in
           after (kjassert (is_none (k_type s)) s) (fun s => kyes (kset_state (kset_type s TString) SST))
  | ANU => after (kjassert (is_none (k_type s)) s) (fun s => kyes (kset_state (kset_type s TNull) SN1))
  | AFA => after (kjassert (is_none (k_type s)) s) (fun s => kyes (kset_state (kset_type s TFalse) SF1))
  | ATR => after (kjassert (is_none (k_type s)) s) (fun s => kyes (kset_state (kset_type s TTrue) ST1))
  | ACE => let s := kset_comment s false in
           after (kjassert (match k_buf s with [] => true | _ => false end) s) (fun s =>
           after (kjassert (is_none (k_type s)) s) (fun s => kyes (kset_state s (k_before s))))
  | ACB => after (quiet (kbuf_pop s)) (fun s =>
           after (kparse_buffer s) (fun s =>
           after (kjassert (negb (is_str (k_type s))) s) (fun s =>
             match k_stack s with
             | [] => quiet UB
             | m :: _ =>
                 let b := match m with
                          | MArray | MObject => match k_state s with SVA => SVA | SAR => SAR | _ => SOK end
                          | _ => k_state s
                          end in
                 kyes (kset_comment (kset_state (kset_type (kset_before s b) TNone) SC1) true)
             end)))
  | M9 => let s := kbuf_clear s in
          after ([JObjectEnd], Ok s) (fun s =>
            match kjpop s MKey with Some s => kyes (kset_state s SOK) | None => kno s end)
  | M8 => after (quiet (kbuf_pop s)) (fun s =>
          after (kparse_buffer s) (fun s =>
          after ([JObjectEnd], Ok s) (fun s =>
            match kjpop s MObject with Some s => kyes (kset_state (kset_type s TNone) SOK) | None => kno s end)))
  | M7 => after (quiet (kbuf_pop s)) (fun s =>
          after (kparse_buffer s) (fun s =>
          after ([JArrayEnd], Ok s) (fun s =>
            match kjpop s MArray with Some s => kyes (kset_state (kset_type s TNone) SOK) | None => kno s end)))
  | M6 => after (quiet (kbuf_pop s)) (fun s =>
          after ([JObjectBegin], Ok s) (fun s =>
          after (quiet (Ok (kpush s MKey))) (fun s =>
          after (kjassert (is_none (k_type s)) s) (fun s => kyes (kset_state s SOB)))))
  | M5 => after (quiet (kbuf_pop s)) (fun s =>
          after ([JArrayBegin], Ok s) (fun s =>
          after (quiet (Ok (kpush s MArray))) (fun s =>
          after (kjassert (is_none (k_type s)) s) (fun s => kyes (kset_state s SAR)))))
  | M4 => after (quiet (kbuf_pop s)) (fun s =>
          match k_stack s with
          | [] => quiet UB
          | MKey :: _ =>
              after (kjassert (is_str (k_type s)) s) (fun s =>
              after ([JKey (rev (k_buf s))], Ok s) (fun s =>
                kyes (kbuf_clear (kset_state (kset_type s TNone) SCO))))
          | MArray :: _ | MObject :: _ =>
              after (kjassert (is_str (k_type s)) s) (fun s =>
              after (kparse_buffer s) (fun s => kyes (kset_state (kset_type s TNone) SOK)))
          | MDone :: _ => kno s
          end)
  | M3 => after (quiet (kbuf_pop s)) (fun s =>
          after (kparse_buffer s) (fun s =>
          match k_stack s with
          | [] => quiet UB
          | MObject :: _ =>
              match kjpop s MObject with
              | Some s => after (quiet (Ok (kpush s MKey))) (fun s =>
                          after (kjassert (negb (is_str (k_type s))) s) (fun s => kyes (kset_state (kset_type s TNone) SKE)))
              | None => kno s
              end
          | MArray :: _ => after (kjassert (negb (is_str (k_type s))) s) (fun s => kyes (kset_state (kset_type s TNone) SVA))
          | _ => kno s
          end))
  | M2 => after (quiet (kbuf_pop s)) (fun s =>
          match kjpop s MKey with
          | Some s => after (quiet (Ok (kpush s MObject))) (fun s =>
                      after (kjassert (is_none (k_type s)) s) (fun s => kyes (kset_state s SVA)))
          | None => kno s
          end)
  | TErr => kno s
  end.

(** [jchar] of JSONParserC.v, lib/json/JSON_parser.c:659-967. *)
Definition kjchar (s : core) (c : ascii) : kout :=
  match char_class c with
  | None => kno s
  | Some k =>
      after (quiet (kadd_char s c k)) (fun '(s, ok) =>
        if ok then kjact s (trans (k_state s) k) else kno s)
  end.

(** [jdone] of JSONParserC.v, lib/json/JSON_parser.c:969-976. *)
Definition kjdone (s : core) : bool * core :=
  match k_state s with
  | SOK => match kjpop s MDone with Some s => (true, s) | None => (false, s) end
  | _ => (false, s)
  end.


(** ** The capacities never matter *)

Definition caps (s : jp) : Prop :=
  llen (jp_buf s) < jp_cap s /\ llen (jp_stack s) <= jp_stack_cap s /\ 2 <= jp_cap s /\ 1 <= jp_stack_cap s.

Definition R (s : jp) (k : core) : Prop := k = erase s /\ caps s.

Definition rrel {A B} (Q : A -> B -> Prop) (r : res A) (r' : res B) : Prop :=
  match r, r' with
  | Ok a, Ok b => Q a b
  | Throw e, Throw e' => e = e'
  | UB, UB | Abort, Abort | Fuel, Fuel => True
  | _, _ => False
  end.
Definition orel {A B} (Q : A -> B -> Prop) (r : list jev * res A) (r' : list jev * res B) : Prop :=
  fst r = fst r' /\ rrel Q (snd r) (snd r').
Definition R2 (a : jp * bool) (b : core * bool) : Prop := snd a = snd b /\ R (fst a) (fst b).

Lemma after_rel {A A' B B'} (Q : A -> A' -> Prop) (P : B -> B' -> Prop) r r' k k' :
  orel Q r r' -> (forall a a', Q a a' -> orel P (k a) (k' a')) -> orel P (after r k) (after r' k').
Proof.
  intros [E H] HK. unfold after, orel. destruct (snd r), (snd r'); cbn [rrel] in H; try contradiction;
    cbn [fst snd rrel]; auto.
  destruct (HK _ _ H) as [E1 H1]. rewrite E, E1. split; [reflexivity|exact H1].
Qed.

Lemma rbind_rel {A A' B B'} (Q : A -> A' -> Prop) (P : B -> B' -> Prop) r r' k k' :
  rrel Q r r' -> (forall a a', Q a a' -> rrel P (k a) (k' a')) -> rrel P (rbind r k) (rbind r' k').
Proof. intros H HK. destruct r, r'; cbn [rrel rbind] in *; try contradiction; auto. Qed.

Lemma llen_S {A} (x : A) l : llen (x :: l) = llen l + 1.
Proof. unfold llen. cbn [List.length]. lia. Qed.

Lemma R_push s k c : R s k -> rrel R (buf_push s c) (kbuf_push k c).
Proof.
  intros [-> (C1 & C2 & C3 & C4)]. unfold buf_push, kbuf_push.
  assert (L : llen (jp_buf s) + 1 <? (if jp_cap s <=? llen (jp_buf s) + 1 then jp_cap s * 2 else jp_cap s) = true).
  { apply N.ltb_lt. destruct (jp_cap s <=? llen (jp_buf s) + 1) eqn:E; lia. }
  rewrite L. apply N.ltb_lt in L. cbn [rrel]. split; [reflexivity|].
  unfold caps. cbn -[llen]. rewrite llen_S. repeat split; try lia.
Qed.

Lemma R_jpush s k m : R s k -> rrel R (jpush s m) (Ok (kpush k m)).
Proof.
  intros [-> (C1 & C2 & C3 & C4)]. unfold jpush, kpush.
  assert (L : llen (jp_stack s) <? (if jp_stack_cap s <=? llen (jp_stack s) then jp_stack_cap s * 2 else jp_stack_cap s) = true).
  { apply N.ltb_lt. destruct (jp_stack_cap s <=? llen (jp_stack s)) eqn:E; lia. }
  rewrite L. apply N.ltb_lt in L. cbn [rrel]. split; [reflexivity|].
  unfold caps. cbn -[llen]. rewrite llen_S. repeat split; try lia.
Qed.

Lemma R_pop s k : R s k -> rrel R (buf_pop s) (kbuf_pop k).
Proof.
  intros [-> (C1 & C2 & C3 & C4)]. unfold buf_pop, kbuf_pop. cbn [erase k_buf].
  destruct (jp_buf s) as [|c t] eqn:E; cbn [rrel]; [exact I|]. split; [reflexivity|].
  unfold caps. cbn -[llen]. rewrite llen_S in C1. repeat split; lia.
Qed.

Lemma R_clear s k : R s k -> R (buf_clear s) (kbuf_clear k).
Proof.
  intros [-> (C1 & C2 & C3 & C4)]. split; [reflexivity|]. unfold caps. cbn -[llen]. rewrite llen_nil.
  repeat split; lia.
Qed.

Lemma R_parse s k : R s k -> orel R (parse_buffer s) (kparse_buffer k).
Proof.
  intros H. pose proof (R_clear s k H) as HC. destruct H as [-> C]. unfold parse_buffer, kparse_buffer.
  cbn [erase k_buf k_type]. destruct (jp_type s); try (split; [reflexivity|exact HC]).
  - destruct (sscanf_lld _); split; first [exact HC | exact I | reflexivity].
  - destruct (sscanf_llu _); split; first [exact HC | exact I | reflexivity].
Qed.

Lemma R_decode s k : R s k -> rrel R2 (decode_unicode s) (kdecode_unicode k).
Proof.
  intros [-> (C1 & C2 & C3 & C4)]. unfold decode_unicode, kdecode_unicode. cbn [erase k_buf].
  destruct (jp_buf s) as [|h0 [|h1 [|h2 [|h3 [|x [|y rest]]]]]] eqn:E; try exact I.
  destruct (_ || _ || _ || _)%bool; [exact I|].
  rewrite !llen_S in C1. cbn zeta.
  set (uc := hex_of h3 * 4096 + hex_of h2 * 256 + hex_of h1 * 16 + hex_of h0).
  assert (P : forall s' u t, jp_cap s' = jp_cap s -> jp_stack s' = jp_stack s -> jp_stack_cap s' = jp_stack_cap s ->
     rrel R2 (if jp_cap s' <=? llen rest + llen (utf8_put u t) then UB
          else Ok (set_buf s' (rev (utf8_put u t) ++ rest) (jp_cap s'), true))
       (Ok (kset_buf (erase s') (rev (utf8_put u t) ++ rest), true))).
  { intros s' u t K1 K2 K3. assert (L : llen (utf8_put u t) <= 4) by (destruct t as [|[|[|t]]]; cbn; lia).
    destruct (jp_cap s' <=? llen rest + llen (utf8_put u t)) eqn:Q; [lia|]. cbn [rrel]. split; [reflexivity|].
    split; [reflexivity|]. unfold caps. cbn -[llen]. rewrite llen_app. unfold llen at 1. rewrite rev_length. fold (llen (utf8_put u t)).
    rewrite K2, K3. lia. }
  assert (P' : forall s' b, jp_cap s' = jp_cap s -> jp_stack s' = jp_stack s -> jp_stack_cap s' = jp_stack_cap s ->
     jp_buf s' = rest -> rrel R2 (Ok (s', b)) (Ok (erase s', b))).
  { intros s' b K1 K2 K3 K4. split; [reflexivity|]. split; [reflexivity|]. unfold caps. cbn -[llen]. rewrite K1, K2, K3, K4. lia. }
  cbn [jp_high k_high kset_buf set_buf erase].
  destruct (negb (jp_high s =? 0)).
  - destruct (is_low uc).
    + apply (P (set_high (set_buf s rest (jp_cap s)) 0)); reflexivity.
    + apply (P' (set_buf s rest (jp_cap s))); reflexivity.
  - destruct (uc <? 128); [|destruct (uc <? 2048); [|destruct (is_high uc); [|destruct (is_low uc)]]].
    + apply (P (set_buf s rest (jp_cap s))); reflexivity.
    + apply (P (set_buf s rest (jp_cap s))); reflexivity.
    + apply (P' (set_high (set_buf s rest (jp_cap s)) uc)); reflexivity.
    + apply (P' (set_buf s rest (jp_cap s))); reflexivity.
    + apply (P (set_buf s rest (jp_cap s))); reflexivity.
Qed.

Lemma R_ok2 s k b : R s k -> rrel R2 (Ok (s, b)) (Ok (k, b)).
Proof. intros H. split; [reflexivity|exact H]. Qed.

Lemma R_escaped s k c : R s k -> rrel R2 (add_escaped s c) (kadd_escaped k c).
Proof.
  intros H. unfold add_escaped, kadd_escaped. apply (rbind_rel R).
  { apply R_pop. destruct H as [-> C]. split; [reflexivity|exact C]. }
  intros s1 k1 H1. cbv zeta.
  assert (One : forall x, rrel R2 (do s <- buf_push s1 x; Ok (s, true)) (do s <- kbuf_push k1 x; Ok (s, true))).
  { intros x. apply (rbind_rel R); [apply R_push, H1|]. intros; apply R_ok2; assumption. }
  repeat (match goal with |- context [if ?b then _ else _] => destruct b end; [try apply One|]).
  - apply (rbind_rel R); [apply R_push, H1|]. intros s2 k2 H2.
    apply (rbind_rel R); [apply R_push, H2|]. intros; apply R_ok2; assumption.
  - apply R_ok2, H1.
Qed.

Lemma R_add s k c cl : R s k -> rrel R2 (add_char s c cl) (kadd_char k c cl).
Proof.
  intros H. pose proof H as H'. destruct H as [-> C]. unfold add_char, kadd_char. cbn [erase k_escaped k_comment k_type].
  destruct (jp_escaped s); [apply R_escaped, H'|]. destruct (jp_comment s); [apply R_ok2, H'|].
  cbv zeta. destruct (_ && _)%bool; [apply R_ok2, H'|].
  apply (rbind_rel R); [apply R_push, H'|]. intros; apply R_ok2; assumption.
Qed.

Lemma R_assert s k b b' : R s k -> b = b' -> orel R (jassert b s) (kjassert b' k).
Proof. intros H <-. unfold jassert, kjassert. destruct b; split; cbn; auto. Qed.

Lemma R_yes s k : R s k -> orel R2 (yes s) (kyes k).
Proof. intros H. split; [reflexivity|]. apply R_ok2, H. Qed.
Lemma R_no s k : R s k -> orel R2 (no s) (kno k).
Proof. intros H. split; [reflexivity|]. apply R_ok2, H. Qed.

Lemma R_quiet {A B} (Q : A -> B -> Prop) r r' : rrel Q r r' -> orel Q (quiet r) (quiet r').
Proof. intros H. split; [reflexivity|exact H]. Qed.

Lemma R_jpop s k m : R s k -> match jpop s m, kjpop k m with Some a, Some b => R a b | None, None => True | _, _ => False end.
Proof.
  intros [-> (C1 & C2 & C3 & C4)]. unfold jpop, kjpop. cbn [erase k_stack].
  destruct (jp_stack s) as [|x t] eqn:E; [exact I|]. destruct (jmode_eqb x m); [|exact I].
  split; [reflexivity|]. rewrite llen_S in C2. unfold caps. cbn -[llen]. repeat split; lia.
Qed.

Lemma R_evs e s k : R s k -> orel R (e, Ok s) (e, Ok k).
Proof. intros H. split; [reflexivity|exact H]. Qed.

Lemma R_Pop s k m f f' : R s k -> (forall a b, R a b -> orel R2 (f a) (f' b)) ->
  orel R2 (match jpop s m with Some s => f s | None => no s end)
          (match kjpop k m with Some s => f' s | None => kno k end).
Proof.
  intros H HF. pose proof (R_jpop s k m H) as P.
  destruct (jpop s m), (kjpop k m); try contradiction; [apply HF, P|apply R_no, H].
Qed.

Lemma R_fields s k : R s k -> k_stack k = jp_stack s /\ k_type k = jp_type s /\ k_buf k = jp_buf s /\ k_state k = jp_state s /\
      k_before k = jp_before s /\ k_high k = jp_high s.
Proof. intros [-> _]. repeat split; reflexivity. Qed.

Lemma R_state s k q : R s k -> R (set_state s q) (kset_state k q).
Proof. intros [-> X]; split; [reflexivity|exact X]. Qed.
Lemma R_type s k q : R s k -> R (set_type s q) (kset_type k q).
Proof. intros [-> X]; split; [reflexivity|exact X]. Qed.
Lemma R_esc s k q : R s k -> R (set_escaped s q) (kset_escaped k q).
Proof. intros [-> X]; split; [reflexivity|exact X]. Qed.
Lemma R_comment s k q : R s k -> R (set_comment s q) (kset_comment k q).
Proof. intros [-> X]; split; [reflexivity|exact X]. Qed.
Lemma R_before s k q : R s k -> R (set_before s q) (kset_before k q).
Proof. intros [-> X]; split; [reflexivity|exact X]. Qed.

Local Hint Resolve R_state R_type R_esc R_comment R_before R_clear : core.

Ltac fields := repeat match goal with H : R _ _ |- _ => destruct (R_fields _ _ H) as (? & ? & ? & ? & ? & ?); clear H end.
Ltac fin := first [ solve [auto 10] | solve [cbn; fields; repeat match goal with E : _ = _ |- _ => rewrite E; clear E end; reflexivity]
  | match goal with H : R ?x ?y |- context [k_before ?y] => destruct (R_fields x y H) as (_ & _ & _ & _ & -> & _); solve [auto 10] end ].
Ltac go1 := match goal with
      | |- orel _ (after (quiet (buf_pop _)) _) _ => apply (after_rel R); [apply R_quiet, R_pop; fin|intros ? ? ?]
      | |- orel _ (after (quiet (jpush _ _)) _) _ => apply (after_rel R); [apply R_quiet, R_jpush; fin|intros ? ? ?]
      | |- orel _ (after (parse_buffer _) _) _ => apply (after_rel R); [apply R_parse; fin|intros ? ? ?]
      | |- orel _ (after (jassert _ _) _) _ => apply (after_rel R); [apply R_assert; fin|intros ? ? ?]
      | |- orel _ (after (_, Ok _) _) _ => apply (after_rel R); [apply R_evs; fin|intros ? ? ?]
      | |- orel _ (match jpop _ _ with _ => _ end) _ => apply R_Pop; [fin|intros]
      | |- orel _ (yes _) _ => apply R_yes; fin
      | |- orel _ (no _) _ => apply R_no; fin
      end.

Lemma R_act s k a : R s k -> orel R2 (jact s a) (kjact k a).
Proof.
  intros H. destruct a; cbn [jact kjact]; cbv zeta; repeat go1.
  all: try (apply (after_rel R2); [apply R_quiet, R_decode, H|]; intros [s1 b1] [k1 b2] [E1 H1]; cbn [fst snd] in *; subst b2;
    destruct b1; [destruct (R_fields _ _ H1) as (_ & _ & _ & _ & _ & ->)|]; go1).
  all: match goal with HR : R ?x ?y |- context [k_stack ?y] => destruct (R_fields x y HR) as (-> & _ & _ & Q & _ & _); try rewrite Q;
         destruct (jp_stack x) as [|m t]; [split; [reflexivity|exact I]|]; destruct m; repeat go1 end.
  match goal with HR : R ?x ?y |- context [k_buf ?y] => destruct (R_fields x y HR) as (_ & _ & -> & _) end. repeat go1.
Qed.

(** One character: the same callbacks, results and states. *)
Lemma R_char s k c : R s k -> orel R2 (jchar s c) (kjchar k c).
Proof.
  intros H. unfold jchar, kjchar. destruct (char_class c) as [cl|]; [|apply R_no, H].
  apply (after_rel R2); [apply R_quiet, R_add, H|]. intros [s1 b1] [k1 b2] [E1 H1]. cbn [fst snd] in *. subst b2.
  destruct b1; [|apply R_no, H1]. destruct (R_fields _ _ H1) as (_ & _ & _ & -> & _). apply R_act, H1.
Qed.

Lemma R_new : R jp_new (erase jp_new).
Proof. split; [reflexivity|]. unfold caps. vm_compute. repeat split; intros; discriminate. Qed.

Lemma R_done s k : R s k -> fst (jdone s) = fst (kjdone k) /\ R (snd (jdone s)) (snd (kjdone k)).
Proof.
  intros H. unfold jdone, kjdone. destruct (R_fields _ _ H) as (_ & _ & _ & -> & _).
  pose proof (R_jpop s k MDone H) as P. destruct (jp_state s); try (split; [reflexivity|exact H]).
  destruct (jpop s MDone), (kjpop k MDone); try contradiction; split; try reflexivity; assumption.
Qed.
