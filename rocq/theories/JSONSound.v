(** What the JSON parser accepts is a sentence of the grammar (proof device; the model is
    JSONParserC.v and JSONDriver.v, the grammar JsonGrammar.v). *)
From Verif Require Import Base CNum Float FloatText FloatTextProofs ParserInput Value Convert Builder JSONParserC JSONCore
  JSONDriver JSONFlat JsonGrammar JSONAccept JSONRead JSONSafe.
Open Scope N_scope.

(** The values of the lenient grammar with comments. *)
Definition gval : bytes -> jtree -> Prop := jval cwsp byte_plain lib_num.
Definition gchars : bytes -> bytes -> Prop := chars byte_plain.
Definition mev (m : list (bytes * jtree)) : list jev := flat_map (fun kv => JKey (fst kv) :: tevents (snd kv)) m.

Ltac lists := repeat (rewrite <- app_assoc || (progress cbn [app flat_map]) || rewrite app_nil_r); reflexivity.

Lemma mev_app a b : mev (a ++ b) = mev a ++ mev b.
Proof. apply flat_map_app. Qed.

(** ** Lists still open *)

(** The elements read so far; a value comes next. *)
Inductive pelems : bytes -> list jtree -> Prop :=
| PE0 w : cwsp w -> pelems w []
| PE1 t l u v w2 w : pelems t l -> gval u v -> cwsp w2 -> cwsp w -> pelems (t ++ u ++ w2 ++ ","%char :: w) (l ++ [v]).
(** The members read so far; a name comes next. *)
Inductive pmembers : bytes -> list (bytes * jtree) -> Prop :=
| PM0 w : cwsp w -> pmembers w []
| PM1 t m kt k w2 w3 u v w4 w : pmembers t m -> gchars kt k -> cwsp w2 -> cwsp w3 -> gval u v -> cwsp w4 -> cwsp w ->
    pmembers (t ++ quoted kt ++ w2 ++ ":"%char :: w3 ++ u ++ w4 ++ ","%char :: w) (m ++ [(k, v)]).

Lemma cwsp_app a b : cwsp a -> cwsp b -> cwsp (a ++ b).
Proof.
  induction 1 as [|c w Hc _ IH|t w Ht _ IH]; intros H; cbn [app].
  - exact H.
  - constructor; auto.
  - rewrite <- app_assoc. cbn [app]. apply CWComment; auto.
Qed.

Lemma pelems_ws t l w : pelems t l -> cwsp w -> pelems (t ++ w) l.
Proof.
  intros [w0 H|t0 l0 u v w2 w0 H V W2 W0] W.
  - constructor. apply cwsp_app; assumption.
  - replace ((t0 ++ u ++ w2 ++ ","%char :: w0) ++ w) with (t0 ++ u ++ w2 ++ ","%char :: (w0 ++ w)) by lists.
    constructor; auto. apply cwsp_app; assumption.
Qed.
Lemma pmembers_ws t m w : pmembers t m -> cwsp w -> pmembers (t ++ w) m.
Proof.
  intros [w0 H|t0 m0 kt k w2 w3 u v w4 w0 H K W2 W3 V W4 W0] W.
  - constructor. apply cwsp_app; assumption.
  - replace ((t0 ++ quoted kt ++ w2 ++ ":"%char :: w3 ++ u ++ w4 ++ ","%char :: w0) ++ w)
      with (t0 ++ quoted kt ++ w2 ++ ":"%char :: w3 ++ u ++ w4 ++ ","%char :: (w0 ++ w)) by lists.
    constructor; auto. apply cwsp_app; assumption.
Qed.

Lemma pelems_go t l : pelems t l -> forall r m, (forall w, cwsp w -> jelems cwsp byte_plain lib_num (w ++ r) m) ->
  jelems cwsp byte_plain lib_num (t ++ r) (l ++ m).
Proof.
  induction 1 as [w W|t l u v w2 w _ IH V W2 W]; intros r m H.
  - apply H, W.
  - replace ((t ++ u ++ w2 ++ ","%char :: w) ++ r) with (t ++ (u ++ w2 ++ ","%char :: (w ++ r))) by lists.
    replace ((l ++ [v]) ++ m) with (l ++ (v :: m)) by lists. apply IH. intros w1 W1. apply JECons; auto.
Qed.
Lemma pelems_end t l u v w : pelems t l -> gval u v -> cwsp w -> jelems cwsp byte_plain lib_num (t ++ u ++ w) (l ++ [v]).
Proof. intros H V W. apply (pelems_go _ _ H). intros w1 W1. apply JEOne; auto. Qed.

Lemma pmembers_go t m : pmembers t m -> forall r n, (forall w, cwsp w -> jmembers cwsp byte_plain lib_num (w ++ r) n) ->
  jmembers cwsp byte_plain lib_num (t ++ r) (m ++ n).
Proof.
  induction 1 as [w W|t m kt k w2 w3 u v w4 w _ IH K W2 W3 V W4 W]; intros r n H.
  - apply H, W.
  - replace ((t ++ quoted kt ++ w2 ++ ":"%char :: w3 ++ u ++ w4 ++ ","%char :: w) ++ r)
      with (t ++ (quoted kt ++ w2 ++ ":"%char :: w3 ++ u ++ w4 ++ ","%char :: (w ++ r))) by lists.
    replace ((m ++ [(k, v)]) ++ n) with (m ++ ((k, v) :: n)) by lists. apply IH. intros w1 W1. apply JMCons; auto.
Qed.
Lemma pmembers_end t m kt k w2 w3 u v w : pmembers t m -> gchars kt k -> cwsp w2 -> cwsp w3 -> gval u v -> cwsp w ->
  jmembers cwsp byte_plain lib_num (t ++ quoted kt ++ w2 ++ ":"%char :: w3 ++ u ++ w) (m ++ [(k, v)]).
Proof. intros H K W2 W3 V W. apply (pmembers_go _ _ H). intros w1 W1. apply JMOne; auto. Qed.

(** ** Where the parser is *)

(** A value comes next: the text read, the modes, the callbacks made. *)
Inductive ctx : bytes -> list jmode -> list jev -> Prop :=
| CRoot : ctx [] [MDone] []
| CArr h stk e t l h' e' : ctx h stk e -> pelems t l -> h' = h ++ "["%char :: t -> e' = e ++ JArrayBegin :: flat_map tevents l ->
    ctx h' (MArray :: stk) e'
| CObj h stk e t m kt k w2 w3 h' e' : ctx h stk e -> pmembers t m -> gchars kt k -> cwsp w2 -> cwsp w3 ->
    h' = h ++ "{"%char :: t ++ quoted kt ++ w2 ++ ":"%char :: w3 -> e' = e ++ JObjectBegin :: mev m ++ [JKey k] ->
    ctx h' (MObject :: stk) e'.
Definition vmode (stk : list jmode) : Prop := exists m t, stk = m :: t /\ value_mode m = true.

(** A name comes next. *)
Inductive kctx : bytes -> list jmode -> list jev -> Prop :=
| KCtx h stk e t m h' e' : ctx h stk e -> pmembers t m -> h' = h ++ "{"%char :: t -> e' = e ++ JObjectBegin :: mev m ->
    kctx h' (MKey :: stk) e'.

Inductive pos : jstate -> list jmode -> bytes -> list jev -> Prop :=
| PVa h stk e : ctx h stk e -> vmode stk -> pos SVA stk h e
| PAr h stk e w h' e' : ctx h stk e -> cwsp w -> h' = h ++ "["%char :: w -> e' = e ++ [JArrayBegin] -> pos SAR (MArray :: stk) h' e'
| POb h stk e w h' e' : ctx h stk e -> cwsp w -> h' = h ++ "{"%char :: w -> e' = e ++ [JObjectBegin] -> pos SOB (MKey :: stk) h' e'
| PKe h stk e : kctx h stk e -> pos SKE stk h e
| PCo h stk e kt k w h' e' : kctx h stk e -> gchars kt k -> cwsp w -> h' = h ++ quoted kt ++ w -> e' = e ++ [JKey k] -> pos SCO stk h' e'
| POk h stk e t v w h' e' : ctx h stk e -> gval t v -> cwsp w -> h' = h ++ t ++ w -> e' = e ++ tevents v -> pos SOK stk h' e'.

Lemma ctx_ws h stk e w : ctx h stk e -> vmode stk -> cwsp w -> ctx (h ++ w) stk e.
Proof.
  intros [|h0 stk0 e0 t l h' e' C P -> ->|h0 stk0 e0 t m kt k w2 w3 h' e' C P K W2 W3 -> ->] (x & y & E & V) W.
  - injection E as <- <-. discriminate.
  - eapply CArr; [exact C|apply (pelems_ws _ _ _ P W)|lists|reflexivity].
  - eapply CObj; [exact C|exact P|exact K|exact W2|apply (cwsp_app _ _ W3 W)|lists|reflexivity].
Qed.
Lemma kctx_ws h stk e w : kctx h stk e -> cwsp w -> kctx (h ++ w) stk e.
Proof.
  intros [h0 stk0 e0 t m h' e' C P -> ->] W. eapply KCtx; [exact C|apply (pmembers_ws _ _ _ P W)|lists|reflexivity].
Qed.

Lemma pos_ws q stk h e w : pos q stk h e -> cwsp w -> pos q stk (h ++ w) e.
Proof.
  intros H W. destruct H as [h stk e C V|h stk e w0 h' e' C W0 -> ->|h stk e w0 h' e' C W0 -> ->|h stk e C|h stk e kt k w0 h' e' C K W0 -> ->|
      h stk e t v w0 h' e' C V W0 -> ->].
  - apply PVa; [apply ctx_ws; assumption|exact V].
  - eapply PAr; [exact C|apply (cwsp_app _ _ W0 W)|lists|reflexivity].
  - eapply POb; [exact C|apply (cwsp_app _ _ W0 W)|lists|reflexivity].
  - apply PKe, kctx_ws; assumption.
  - eapply PCo; [exact C|exact K|apply (cwsp_app _ _ W0 W)|lists|reflexivity].
  - eapply POk; [exact C|exact V|apply (cwsp_app _ _ W0 W)|lists|reflexivity].
Qed.

(** *** What structural characters do *)

Lemma ar_ctx stk h e : pos SAR stk h e -> ctx h stk e /\ vmode stk.
Proof.
  intros H. inversion H as [|h0 stk0 e0 w h' e' C W -> ->| | | |]; subst. split; [|exists MArray, stk0; auto].
  eapply CArr; [exact C|apply PE0, W|reflexivity|reflexivity].
Qed.
Lemma ob_kctx stk h e : pos SOB stk h e -> kctx h stk e.
Proof.
  intros H. inversion H as [| |h0 stk0 e0 w h' e' C W -> ->| | |]; subst.
  eapply KCtx; [exact C|apply PM0, W|reflexivity|reflexivity].
Qed.

Lemma open_array h stk e : ctx h stk e -> pos SAR (MArray :: stk) (h ++ ["["%char]) (e ++ [JArrayBegin]).
Proof. intros C. eapply PAr; [exact C|constructor|reflexivity|reflexivity]. Qed.
Lemma open_object h stk e : ctx h stk e -> pos SOB (MKey :: stk) (h ++ ["{"%char]) (e ++ [JObjectBegin]).
Proof. intros C. eapply POb; [exact C|constructor|reflexivity|reflexivity]. Qed.

Lemma close_empty_array stk h e : pos SAR (MArray :: stk) h e -> pos SOK stk (h ++ ["]"%char]) (e ++ [JArrayEnd]).
Proof.
  intros H. inversion H as [|h0 stk0 e0 w h' e' C W E1 E2| | | |]; subst.
  apply (POk h0 stk e0 ("["%char :: w ++ ["]"%char]) (TArr []) []); [exact C|apply JArr0, W|constructor|lists|lists].
Qed.
Lemma close_empty_object stk h e : pos SOB (MKey :: stk) h e -> pos SOK stk (h ++ ["}"%char]) (e ++ [JObjectEnd]).
Proof.
  intros H. inversion H as [| |h0 stk0 e0 w h' e' C W E1 E2| | |]; subst.
  apply (POk h0 stk e0 ("{"%char :: w ++ ["}"%char]) (TObj []) []); [exact C|apply JObj0, W|constructor|lists|lists].
Qed.
Lemma close_array stk h e : pos SOK (MArray :: stk) h e -> pos SOK stk (h ++ ["]"%char]) (e ++ [JArrayEnd]).
Proof.
  intros H. inversion H as [| | | | |h0 stk0 e0 u v w h' e' C V W E1 E2]; subst.
  inversion C as [|h1 stk1 e1 t l h' e' C1 P E1 E2|]; subst.
  apply (POk h1 stk e1 ("["%char :: (t ++ u ++ w) ++ ["]"%char]) (TArr (l ++ [v])) []);
    [exact C1|apply JArr, pelems_end; assumption|constructor|lists|].
  cbn [tevents]. rewrite flat_map_app. lists.
Qed.
Lemma close_object stk h e : pos SOK (MObject :: stk) h e -> pos SOK stk (h ++ ["}"%char]) (e ++ [JObjectEnd]).
Proof.
  intros H. inversion H as [| | | | |h0 stk0 e0 u v w h' e' C V W E1 E2]; subst.
  inversion C as [| |h1 stk1 e1 t m kt k w2 w3 h' e' C1 P K W2 W3 E1 E2]; subst.
  apply (POk h1 stk e1 ("{"%char :: (t ++ quoted kt ++ w2 ++ ":"%char :: w3 ++ u ++ w) ++ ["}"%char]) (TObj (m ++ [(k, v)])) []);
    [exact C1|apply JObj, pmembers_end; assumption|constructor|lists|].
  cbn [tevents]. fold (mev (m ++ [(k, v)])). rewrite mev_app. cbn [mev flat_map fst snd]. lists.
Qed.
Lemma comma_array stk h e : pos SOK (MArray :: stk) h e -> pos SVA (MArray :: stk) (h ++ [","%char]) e.
Proof.
  intros H. inversion H as [| | | | |h0 stk0 e0 u v w h' e' C V W E1 E2]; subst.
  inversion C as [|h1 stk1 e1 t l h' e' C1 P E1 E2|]; subst. apply PVa; [|exists MArray, stk; auto].
  apply (CArr h1 stk e1 (t ++ u ++ w ++ [","%char]) (l ++ [v])); [exact C1|constructor; auto; constructor|lists|rewrite flat_map_app; lists].
Qed.
Lemma comma_object stk h e : pos SOK (MObject :: stk) h e -> pos SKE (MKey :: stk) (h ++ [","%char]) e.
Proof.
  intros H. inversion H as [| | | | |h0 stk0 e0 u v w h' e' C V W E1 E2]; subst.
  inversion C as [| |h1 stk1 e1 t m kt k w2 w3 h' e' C1 P K W2 W3 E1 E2]; subst. apply PKe.
  apply (KCtx h1 stk e1 (t ++ quoted kt ++ w2 ++ ":"%char :: w3 ++ u ++ w ++ [","%char]) (m ++ [(k, v)]));
    [exact C1|constructor; auto; constructor|lists|rewrite mev_app; cbn [mev flat_map fst snd]; lists].
Qed.
Lemma colon stk h e : pos SCO (MKey :: stk) h e -> pos SVA (MObject :: stk) (h ++ [":"%char]) e.
Proof.
  intros H. inversion H as [| | | |h0 stk0 e0 kt k w h' e' C K W E1 E2|]; subst.
  inversion C as [h1 stk1 e1 t m h' e' C1 P E1 E2]; subst. apply PVa; [|exists MObject, stk; auto].
  apply (CObj h1 stk e1 t m kt k w []); auto; [constructor|lists|lists].
Qed.
Lemma pos_key stk h e : pos SCO stk h e -> exists t, stk = MKey :: t.
Proof. intros H. inversion H as [| | | |h0 stk0 e0 kt k w h' e' C K W E1 E2|]; subst. destruct C. eauto. Qed.

(** ** Numbers and literals *)

Definition mant (m : bytes) : Prop :=
  (exists neg ip, int_part ip /\ ip <> s2b "0" /\ m = minus neg ++ ip) \/
  (exists neg ip fp, int_part ip /\ digits fp /\ m = minus neg ++ ip ++ "."%char :: fp).

(** A whole value in the buffer, perhaps with whitespace after it. *)
Definition vfin (ty : jtype) (u : bytes) : Prop :=
  exists t v w, u = t ++ w /\ gval t v /\ wsp w /\ vparse ty u = Some (tevents v) /\ ty <> TString /\ ty <> TNone.

Definition numst (q : jstate) (ty : jtype) (u : bytes) : Prop :=
  match q with
  | SMI => ty = TInteger /\ u = s2b "-"
  | SZE => exists neg, ty = int_type neg /\ u = minus neg ++ s2b "0"
  | SIT => exists neg ip, ty = int_type neg /\ int_part ip /\ ip <> s2b "0" /\ u = minus neg ++ ip
  | SFX | SFR => exists neg ip fp, ty = TFloat /\ int_part ip /\ digits fp /\ u = minus neg ++ ip ++ "."%char :: fp
  | SE1 => exists m e, ty = TFloat /\ mant m /\ (e = "e"%char \/ e = "E"%char) /\ u = m ++ [e]
  | SE2 => exists m e s, ty = TFloat /\ mant m /\ (e = "e"%char \/ e = "E"%char) /\ (s = "+"%char \/ s = "-"%char) /\ u = m ++ [e; s]
  | SE3 => exists m e sg ds, ty = TFloat /\ mant m /\ exp_part e sg ds /\ u = m ++ e :: sg ++ ds
  | ST1 => ty = TTrue /\ u = s2b "t" | ST2 => ty = TTrue /\ u = s2b "tr" | ST3 => ty = TTrue /\ u = s2b "tru"
  | SF1 => ty = TFalse /\ u = s2b "f" | SF2 => ty = TFalse /\ u = s2b "fa" | SF3 => ty = TFalse /\ u = s2b "fal"
  | SF4 => ty = TFalse /\ u = s2b "fals"
  | SN1 => ty = TNull /\ u = s2b "n" | SN2 => ty = TNull /\ u = s2b "nu" | SN3 => ty = TNull /\ u = s2b "nul"
  | SOK => vfin ty u
  | _ => False
  end.

Definition num_type (n : jtree) : jtype := match n with TInt neg _ => int_type neg | _ => TFloat end.
Lemma num_vparse t n : lib_num t n -> vparse (num_type n) t = Some (num_event n).
Proof.
  intros H. destruct H as [neg ip Hi|neg ip fp Hi Hf _|neg ip e sg ds Hi He H0|neg ip fp e sg ds Hi Hf _ He];
    destruct (int_digits ip Hi) as [Hd Hn].
  - destruct (sign_int neg ip [] Hd Hn I) as (t & T1 & T2). rewrite app_nil_r in T1.
    destruct neg; cbn [num_type int_type vparse num_event]; [unfold sscanf_lld|unfold sscanf_llu]; rewrite T1, T2;
      destruct ip as [|c ip]; try congruence; reflexivity.
  - cbn [num_type vparse num_event]. do 3 f_equal. replace ("."%char :: fp) with ("."%char :: fp ++ []) by (now rewrite app_nil_r).
    unfold minus. rewrite (strtod_shape neg ip fp [] Hd Hn Hf I). reflexivity.
  - destruct (exp_head _ _ _ He). cbn [num_type vparse num_event]. rewrite strtod_int_exp by assumption.
    rewrite (read_exp_part _ _ _ He). reflexivity.
  - destruct (exp_head _ _ _ He). cbn [num_type vparse num_event app]. do 3 f_equal. unfold minus.
    rewrite strtod_shape by assumption. rewrite (read_exp_part _ _ _ He). reflexivity.
Qed.

Lemma num_vfin t n : lib_num t n -> vfin (num_type n) t.
Proof.
  intros H. exists t, n, []. split; [lists|]. split; [apply JNum, H|]. split; [reflexivity|].
  split; [rewrite (num_vparse _ _ H); inversion H; reflexivity|].
  destruct n as [| |[] ?| | | |]; split; discriminate.
Qed.

Lemma zero_part : int_part (s2b "0").
Proof. left. reflexivity. Qed.

Lemma numst_fin q ty u : numst q ty u -> ending q = true -> vfin ty u.
Proof.
  destruct q; try discriminate; cbn [numst]; intros H _.
  - exact H.
  - destruct H as (neg & -> & ->). apply (num_vfin _ _ (NumInt _ false neg _ zero_part)).
  - destruct H as (neg & ip & -> & Hi & _ & ->). apply (num_vfin _ _ (NumInt _ false neg _ Hi)).
  - destruct H as (neg & ip & fp & -> & Hi & Hf & ->). apply (num_vfin _ _ (NumFrac _ false neg _ _ Hi Hf I)).
  - destruct H as (m & e & sg & ds & -> & [(neg & ip & Hi & N0 & ->)|(neg & ip & fp & Hi & Hf & ->)] & He & ->).
    + assert (Z : ip = s2b "0" -> false = true) by (intros E; contradiction).
      pose proof (num_vfin _ _ (NumExp (fun _ => True) false neg ip e sg ds Hi He Z)) as G. cbn [num_type] in G.
      rewrite <- app_assoc. exact G.
    + pose proof (num_vfin _ _ (NumFracExp (fun _ => True) false neg ip fp e sg ds Hi Hf I He)) as G. cbn [num_type] in G.
      replace ((minus neg ++ ip ++ "."%char :: fp) ++ e :: sg ++ ds) with (minus neg ++ ip ++ "."%char :: fp ++ e :: sg ++ ds) by lists. exact G.
  - destruct H as (neg & ip & fp & -> & Hi & Hf & ->). apply (num_vfin _ _ (NumFrac _ false neg _ _ Hi Hf I)).
Qed.

Lemma vfin_ws ty u c : vfin ty u -> is_ws c = true -> vfin ty (u ++ [c]).
Proof.
  intros (t & v & w & -> & V & W & P & N1 & N2) Hc. exists t, v, (w ++ [c]). split; [lists|]. split; [exact V|].
  split; [unfold wsp in *; rewrite forallb_app, W; cbn; rewrite Hc; reflexivity|]. split; [|auto].
  rewrite (vparse_ws _ _ _ Hc). exact P.
Qed.

(** ** Characters of one class *)

Definition class_chr (k : jclass) : option ascii :=
  match k with
  | C_LCURB => Some "{"%char | C_RCURB => Some "}"%char | C_LSQRB => Some "["%char | C_RSQRB => Some "]"%char
  | C_COLON => Some ":"%char | C_COMMA => Some ","%char | C_QUOTE => Some (bchr 34) | C_BACKS => Some "\"%char
  | C_SLASH => Some "/"%char | C_PLUS => Some "+"%char | C_MINUS => Some "-"%char | C_POINT => Some "."%char | C_ZERO => Some "0"%char
  | C_LOW_A => Some "a"%char | C_LOW_B => Some "b"%char | C_LOW_C => Some "c"%char | C_LOW_D => Some "d"%char
  | C_LOW_E => Some "e"%char | C_LOW_F => Some "f"%char | C_LOW_L => Some "l"%char | C_LOW_N => Some "n"%char
  | C_LOW_R => Some "r"%char | C_LOW_S => Some "s"%char | C_LOW_T => Some "t"%char | C_LOW_U => Some "u"%char
  | C_E => Some "E"%char | C_STAR => Some "*"%char
  | _ => None
  end.
Lemma class_one c k d : char_class c = Some k -> class_chr k = Some d -> c = d.
Proof.
  assert (S : forallb (fun c => match char_class c with Some k => match class_chr k with Some d => aeqb c d | None => true end | None => true end) all_bytes = true)
    by (vm_compute; reflexivity).
  pose proof (sweep _ S c) as T. cbv beta in T. intros H K. rewrite H, K in T. now apply aeqb_eq.
Qed.
Lemma class_white c k : char_class c = Some k -> is_white k = true -> is_ws c = true.
Proof.
  assert (S : forallb (fun c => match char_class c with Some k => implb (is_white k) (is_ws c) | None => true end) all_bytes = true)
    by (vm_compute; reflexivity).
  pose proof (sweep _ S c) as T. cbv beta in T. intros H K. rewrite H, K in T. exact T.
Qed.
Lemma class_nonzero c : char_class c = Some C_DIGIT -> is_digit c = true /\ c <> "0"%char.
Proof.
  intros H. split; [apply (class_digit _ _ H); auto|]. intros ->. vm_compute in H. discriminate.
Qed.
Lemma class_not c k d : char_class c = Some k -> char_class d <> Some k -> c <> d.
Proof. intros H K ->. contradiction. Qed.

(** ** The invariant *)

(** A comment still open. *)
Definition nc (t : bytes) : Prop := forall a b, t <> a ++ "*"%char :: "/"%char :: b.
Definition starred (t : bytes) : Prop := exists a, t = a ++ ["*"%char].

(** A literal cut short by a comment. *)
Definition clean (h : bytes) : Prop :=
  forall a b, h <> a ++ s2b "tru/" ++ b /\ h <> a ++ s2b "fals/" ++ b /\ h <> a ++ s2b "nul/" ++ b.

Inductive JI (h : bytes) (e : list jev) : core -> Prop :=
| JIdle q b stk : pos q stk h e -> JI h e (Core q b TNone false false 0 stk [])
| JCom1 b stk h1 : h = h1 ++ ["/"%char] -> pos b stk h1 e -> JI h e (Core SC1 b TNone false true 0 stk [])
| JCom2 b stk h1 t : h = h1 ++ "/"%char :: "*"%char :: t -> nc t -> ~ starred t -> pos b stk h1 e -> JI h e (Core SC2 b TNone false true 0 stk [])
| JCom3 b stk h1 t : h = h1 ++ "/"%char :: "*"%char :: t ++ ["*"%char] -> nc (t ++ ["*"%char]) -> pos b stk h1 e -> JI h e (Core SC3 b TNone false true 0 stk [])
| JNumb q b ty stk h1 u : h = h1 ++ u -> ctx h1 stk e -> vmode stk -> numst q ty u -> JI h e (Core q b ty false false 0 stk (rev u))
| JStrv q b esc hi stk buf h1 : strst h1 h q esc hi buf -> ctx h1 stk e -> vmode stk -> JI h e (Core q b TString esc false hi stk buf)
| JStrk q b esc hi stk buf h1 : strst h1 h q esc hi buf -> kctx h1 stk e -> JI h e (Core q b TString esc false hi stk buf).

Definition jgood (h : bytes) (e : list jev) (o : kout) : Prop :=
  match snd o with Ok (p, true) => JI h (e ++ fst o) p | _ => True end.

Lemma jg_no h e p : jgood h e (kno p).
Proof. exact I. Qed.
Lemma jg_yes h e p : JI h e p -> jgood h e (kyes p).
Proof. unfold jgood. cbn [kyes fst snd]. now rewrite app_nil_r. Qed.
Lemma jg_after h e {A} e1 (a : A) k : jgood h (e ++ e1) (k a) -> jgood h e (after (e1, Ok a) k).
Proof.
  unfold jgood. cbn [after fst snd]. destruct (snd (k a)) as [[p [|]]| | | |]; auto. now rewrite app_assoc.
Qed.

(** The value before a structural character. *)
Definition fin (stk : list jmode) (h : bytes) (e : list jev) (ty : jtype) (buf : bytes) : Prop :=
  ty <> TString /\ exists e1, vparse ty (rev buf) = Some e1 /\ pos SOK stk h (e ++ e1).

Lemma fin_idle stk h e : pos SOK stk h e -> fin stk h e TNone [].
Proof. intros H. split; [discriminate|]. exists []. rewrite app_nil_r. auto. Qed.
Lemma fin_vfin stk h1 e ty u : ctx h1 stk e -> vfin ty u -> fin stk (h1 ++ u) e ty (rev u).
Proof.
  intros C (t & v & w & -> & V & W & P & N1 & N2). split; [exact N1|]. exists (tevents v). rewrite rev_involutive.
  split; [exact P|]. apply (POk h1 stk e t v w); auto. apply wsp_cwsp, W.
Qed.

Lemma term_M7 stk h e q b ty buf c : fin stk h e ty buf -> c = "]"%char ->
  jgood (h ++ [c]) e (kjact (Core q b ty false false 0 stk (c :: buf)) M7).
Proof.
  intros (N & e1 & P & H) ->. cbn [kjact kbuf_pop k_buf quiet]. apply jg_after; cbv beta. rewrite app_nil_r.
  change (kset_buf _ buf) with (Core q b ty false false 0 stk buf). rewrite (vparse_ok (Core q b ty false false 0 stk buf) e1 P). apply jg_after; cbv beta.
  change (kbuf_clear _) with (Core q b ty false false 0 stk []).
  apply jg_after; cbv beta. unfold kjpop. cbn [k_stack].
  destruct stk as [|[| | |] stk]; try exact I. cbn [jmode_eqb]. apply jg_yes, JIdle. apply close_array, H.
Qed.
Lemma term_M8 stk h e q b ty buf c : fin stk h e ty buf -> c = "}"%char ->
  jgood (h ++ [c]) e (kjact (Core q b ty false false 0 stk (c :: buf)) M8).
Proof.
  intros (N & e1 & P & H) ->. cbn [kjact kbuf_pop k_buf quiet]. apply jg_after; cbv beta. rewrite app_nil_r.
  change (kset_buf _ buf) with (Core q b ty false false 0 stk buf). rewrite (vparse_ok (Core q b ty false false 0 stk buf) e1 P). apply jg_after; cbv beta.
  change (kbuf_clear _) with (Core q b ty false false 0 stk []).
  apply jg_after; cbv beta. unfold kjpop. cbn [k_stack].
  destruct stk as [|[| | |] stk]; try exact I. cbn [jmode_eqb]. apply jg_yes, JIdle. apply close_object, H.
Qed.
Lemma term_M3 stk h e q b ty buf c : fin stk h e ty buf -> c = ","%char ->
  jgood (h ++ [c]) e (kjact (Core q b ty false false 0 stk (c :: buf)) M3).
Proof.
  intros (N & e1 & P & H) ->. cbn [kjact kbuf_pop k_buf quiet]. apply jg_after; cbv beta. rewrite app_nil_r.
  change (kset_buf _ buf) with (Core q b ty false false 0 stk buf). rewrite (vparse_ok (Core q b ty false false 0 stk buf) e1 P). apply jg_after; cbv beta.
  change (kbuf_clear _) with (Core q b ty false false 0 stk []).
  assert (T : negb (is_str ty) = true) by (destruct ty; try reflexivity; congruence).
  cbn [k_stack]. destruct stk as [|[| | |] stk]; try exact I.
  - unfold kjassert. cbn [k_type]. rewrite T. apply jg_after; cbv beta. rewrite app_nil_r. apply jg_yes, JIdle. apply comma_array, H.
  - unfold kjpop. cbn [k_stack jmode_eqb]. apply jg_after; cbv beta. unfold kjassert. cbn [kpush k_type kset_stack]. rewrite T.
    apply jg_after; cbv beta. rewrite !app_nil_r. apply jg_yes, JIdle. apply comma_object, H.
Qed.
Lemma term_ACB stk h e q b ty buf c : vmode stk -> (q <> SVA /\ q <> SAR) -> fin stk h e ty buf -> c = "/"%char ->
  jgood (h ++ [c]) e (kjact (Core q b ty false false 0 stk (c :: buf)) ACB).
Proof.
  intros (m & t & -> & V) [N1 N2] (N & e1 & P & H) ->. cbn [kjact kbuf_pop k_buf quiet]. apply jg_after; cbv beta. rewrite app_nil_r.
  change (kset_buf _ buf) with (Core q b ty false false 0 (m :: t) buf). rewrite (vparse_ok (Core q b ty false false 0 (m :: t) buf) e1 P). apply jg_after; cbv beta.
  change (kbuf_clear _) with (Core q b ty false false 0 (m :: t) []).
  assert (T : negb (is_str ty) = true) by (destruct ty; try reflexivity; congruence).
  unfold kjassert. cbn [k_type]. rewrite T. apply jg_after; cbv beta. rewrite app_nil_r. cbn [k_stack]. apply jg_yes.
  assert (B : match m with MArray | MObject => match q with SVA => SVA | SAR => SAR | _ => SOK end | _ => q end = SOK)
    by (destruct m; try discriminate; destruct q; congruence).
  cbn [k_state]. rewrite B. apply (JCom1 _ _ _ _ h); [reflexivity|exact H].
Qed.

(** *** Idle states *)
Lemma jg_idle h e q b stk c : pos q stk h e -> jgood (h ++ [c]) e (kjchar (Core q b TNone false false 0 stk []) c).
Proof.
  intros H. destruct (char_class c) as [k|] eqn:Ec; [|unfold kjchar; rewrite Ec; apply jg_no].
  destruct (is_white k) eqn:W.
  - rewrite (kj_white _ _ _ _ _ _ k Ec W). pose proof (class_white _ _ Ec W) as Wc.
    assert (G : JI (h ++ [c]) e (Core q b TNone false false 0 stk [])).
    { apply JIdle, pos_ws; [exact H|]. constructor; [exact Wc|constructor]. }
    destruct k; try discriminate W; destruct H; apply jg_yes, G.
  - rewrite (kj_push _ _ _ _ _ _ _ k Ec (fun _ => W)).
    assert (CH : forall d, class_chr k = Some d -> c = d) by (intros d; apply class_one, Ec).
    assert (NUM : forall q' ty h1, ctx h1 stk e -> vmode stk -> numst q' ty [c] -> JI (h1 ++ [c]) e (Core q' b ty false false 0 stk [c]))
      by (intros q' ty h1 C V N; apply (JNumb _ _ q' b ty stk h1 [c]); auto).
    assert (VAL : forall h1, ctx h1 stk e -> vmode stk -> forall q0, start_value q0 = true -> trans q0 k <> ACB -> trans q0 k <> M7 ->
       jgood (h1 ++ [c]) e (kjact (Core q0 b TNone false false 0 stk [c]) (trans q0 k))).
    { intros h1 C V q0 Q0 NA N7. 
      destruct k; try discriminate W; destruct q0; try discriminate Q0; cbn [trans nth class_idx jrow] in *; try congruence; try apply jg_no;
        try (rewrite (CH _ eq_refl) in *).
      all: try (unfold jgood; cbn; apply JIdle; apply open_array, C).
      all: try (unfold jgood; cbn; apply JIdle; apply open_object, C).
      all: try (unfold jgood; cbn; rewrite app_nil_r; apply (JStrv _ _ SST b false 0 stk [] h1); [|exact C|exact V];
                apply (StT _ _ [] []); [reflexivity|constructor]).
      all: unfold jgood; cbn; rewrite app_nil_r; apply NUM; auto.
      all: try (split; reflexivity).
      all: try (exists false; split; reflexivity).
      all: destruct (class_nonzero _ Ec) as [D1 D2]; exists false, [c]; cbn; repeat split; auto;
           [right; exists c, []; auto|intros [=]; congruence]. }
    assert (SLASH : forall b', pos b' stk h e -> (match stk with [] => False | m :: _ => b' = match m with MArray | MObject => match q with SVA => SVA | SAR => SAR | _ => SOK end | _ => q end end) -> c = "/"%char ->
       jgood (h ++ [c]) e (kjact (Core q b TNone false false 0 stk [c]) ACB)).
    { intros b' P M ->. destruct stk as [|m stk]; [contradiction|]. subst b'.
      unfold jgood. cbn. rewrite app_nil_r. apply (JCom1 _ _ _ _ h); [reflexivity|]. exact P. }
    pose proof H as H0.
    destruct H as [h stk e C V|h stk e w0 h' e' C W0 -> ->|h stk e w0 h' e' C W0 -> ->|h stk e C|h stk e kt s w0 h' e' C K W0 -> ->|
      h stk e t v w0 h' e' C V W0 -> ->].
    + destruct (trans SVA k) eqn:T; try (rewrite <- T; apply VAL; auto; congruence).
      * apply (SLASH SVA); [exact H0| |]; [destruct V as (m & t & -> & V); destruct m; try discriminate V; reflexivity|].
        destruct k; try discriminate W; try discriminate T; apply CH; reflexivity.
      * exfalso. destruct k; try discriminate W; discriminate T.
    + destruct (ar_ctx _ _ _ H0) as [C1 V1].
      destruct (trans SAR k) eqn:T; try (rewrite <- T; apply VAL; auto; congruence).
      * apply (SLASH SAR); [exact H0|reflexivity|]. destruct k; try discriminate W; try discriminate T; apply CH; reflexivity.
      * assert (EC : c = "]"%char) by (destruct k; try discriminate W; try discriminate T; apply CH; reflexivity). subst c.
        unfold jgood. cbn. apply JIdle. apply (close_empty_array _ _ _ H0).
    + destruct k; try discriminate W; cbn [trans nth class_idx jrow]; try apply jg_no; pose proof (CH _ eq_refl) as EC; subst c.
      * unfold jgood. cbn. apply JIdle. apply (close_empty_object _ _ _ H0).
      * unfold jgood. cbn. rewrite app_nil_r.
        eapply JStrk; [apply (StT _ _ [] []); [reflexivity|constructor]|apply (ob_kctx _ _ _ H0)].
      * apply (SLASH SOB); [exact H0|reflexivity|reflexivity].
    + destruct k; try discriminate W; cbn [trans nth class_idx jrow]; try apply jg_no; pose proof (CH _ eq_refl) as EC; subst c.
      * unfold jgood. cbn. rewrite app_nil_r.
        eapply JStrk; [apply (StT _ _ [] []); [reflexivity|constructor]|exact C].
      * apply (SLASH SKE); [exact H0|destruct C; reflexivity|reflexivity].
    + destruct (pos_key _ _ _ H0) as (stk0 & ->).
      destruct k; try discriminate W; cbn [trans nth class_idx jrow]; try apply jg_no; pose proof (CH _ eq_refl) as EC; subst c.
      * unfold jgood. cbn. rewrite app_nil_r. apply JIdle. apply (colon _ _ _ H0).
      * apply (SLASH SCO); [exact H0|reflexivity|reflexivity].
    + destruct k; try discriminate W; cbn [trans nth class_idx jrow]; try apply jg_no; pose proof (CH _ eq_refl) as EC; subst c.
      * apply term_M8; [apply fin_idle, H0|reflexivity].
      * apply term_M7; [apply fin_idle, H0|reflexivity].
      * apply term_M3; [apply fin_idle, H0|reflexivity].
      * apply (SLASH SOK); [exact H0|destruct C; reflexivity|reflexivity].
Qed.

(** *** Comments *)
Lemma snoc_inj {A} (a b : list A) x y : a ++ [x] = b ++ [y] -> a = b /\ x = y.
Proof. apply app_inj_tail. Qed.
Lemma nc_snoc t c : nc t -> (c = "/"%char -> ~ starred t) -> nc (t ++ [c]).
Proof.
  intros N H a b E. destruct b as [|x b _] using rev_ind.
  - change (a ++ ["*"%char; "/"%char]) with (a ++ ["*"%char] ++ ["/"%char]) in E. rewrite app_assoc in E.
    apply snoc_inj in E as [-> ->]. apply (H eq_refl). exists a. reflexivity.
  - change (a ++ "*"%char :: "/"%char :: b ++ [x]) with (a ++ ("*"%char :: "/"%char :: b) ++ [x]) in E. rewrite app_assoc in E.
    apply snoc_inj in E as [E _]. exact (N _ _ E).
Qed.
Lemma nc_prefix t c : nc (t ++ [c]) -> nc t.
Proof. intros N a b E. apply (N a (b ++ [c])). rewrite E. lists. Qed.
Lemma not_starred t c : c <> "*"%char -> ~ starred (t ++ [c]).
Proof. intros N (a & E). apply snoc_inj in E as [_ E]. contradiction. Qed.

Lemma jg_comment1 h e b stk h1 c : h = h1 ++ ["/"%char] -> pos b stk h1 e -> jgood (h ++ [c]) e (kjchar (Core SC1 b TNone false true 0 stk []) c).
Proof.
  intros -> P. destruct (char_class c) as [k|] eqn:Ec; [|unfold kjchar; rewrite Ec; apply jg_no].
  rewrite (kj_comment _ _ _ _ _ _ k Ec). destruct k; cbn [trans nth class_idx jrow]; try apply jg_no.
  rewrite (class_one _ _ _ Ec eq_refl). apply jg_yes. apply (JCom2 _ _ _ _ h1 []); [lists| | |exact P].
  - intros [|? [|? ?]] ? E; discriminate E.
  - intros ([|? ?] & E); discriminate E.
Qed.

Lemma jg_comment2 h e b stk h1 t c : h = h1 ++ "/"%char :: "*"%char :: t -> nc t -> ~ starred t -> pos b stk h1 e ->
  jgood (h ++ [c]) e (kjchar (Core SC2 b TNone false true 0 stk []) c).
Proof.
  intros -> N S P. destruct (char_class c) as [k|] eqn:Ec; [|unfold kjchar; rewrite Ec; apply jg_no].
  rewrite (kj_comment _ _ _ _ _ _ k Ec).
  assert (G : c <> "*"%char -> jgood ((h1 ++ "/"%char :: "*"%char :: t) ++ [c]) e (kyes (Core SC2 b TNone false true 0 stk []))).
  { intros NS. apply jg_yes, (JCom2 _ _ _ _ h1 (t ++ [c])); [lists|apply nc_snoc; auto|apply not_starred, NS|exact P]. }
  destruct k; cbn [trans nth class_idx jrow]; try (apply G; apply (class_not _ _ _ Ec); discriminate).
  rewrite (class_one _ _ _ Ec eq_refl). apply jg_yes, (JCom3 _ _ _ _ h1 t); [lists|apply nc_snoc; [exact N|discriminate]|exact P].
Qed.

Lemma jg_comment3 h e b stk h1 t c : h = h1 ++ "/"%char :: "*"%char :: t ++ ["*"%char] -> nc (t ++ ["*"%char]) -> pos b stk h1 e ->
  jgood (h ++ [c]) e (kjchar (Core SC3 b TNone false true 0 stk []) c).
Proof.
  intros -> N P. destruct (char_class c) as [k|] eqn:Ec; [|unfold kjchar; rewrite Ec; apply jg_no].
  rewrite (kj_comment _ _ _ _ _ _ k Ec).
  assert (G : c <> "*"%char -> c <> "/"%char -> jgood ((h1 ++ "/"%char :: "*"%char :: t ++ ["*"%char]) ++ [c]) e (kyes (Core SC2 b TNone false true 0 stk []))).
  { intros NS NL. apply jg_yes, (JCom2 _ _ _ _ h1 ((t ++ ["*"%char]) ++ [c])); [lists|apply nc_snoc; [exact N|congruence]|apply not_starred, NS|exact P]. }
  destruct k; cbn [trans nth class_idx jrow]; try (apply G; apply (class_not _ _ _ Ec); discriminate).
  - rewrite (class_one _ _ _ Ec eq_refl). unfold jgood. cbn. rewrite app_nil_r. apply JIdle.
    replace ((h1 ++ "/"%char :: "*"%char :: t ++ ["*"%char]) ++ ["/"%char]) with (h1 ++ ("/"%char :: "*"%char :: t ++ "*"%char :: "/"%char :: [])) by lists.
    apply pos_ws; [exact P|]. apply CWComment; [|constructor]. exact (nc_prefix _ _ N).
  - rewrite (class_one _ _ _ Ec eq_refl). apply jg_yes, (JCom3 _ _ _ _ h1 (t ++ ["*"%char])); [lists|apply nc_snoc; [exact N|discriminate]|exact P].
Qed.

(** *** Numbers and literals *)
Lemma digits_snoc ds c : digits ds -> is_digit c = true -> digits (ds ++ [c]).
Proof. unfold digits. intros H D. rewrite forallb_app, H. cbn. rewrite D. reflexivity. Qed.
Lemma int_snoc ip c : int_part ip -> ip <> s2b "0" -> is_digit c = true -> int_part (ip ++ [c]) /\ ip ++ [c] <> s2b "0".
Proof.
  intros [->|(x & ds & -> & Hx & Nx & Hd)] N D; [congruence|]. split.
  - right. exists x, (ds ++ [c]). repeat split; auto. apply digits_snoc; assumption.
  - intros [= -> E]. congruence.
Qed.
Lemma lit_fin ty t v : gval t v -> vparse ty t = Some (tevents v) -> ty <> TString -> ty <> TNone -> vfin ty t.
Proof. intros V P N1 N2. exists t, v, []. split; [lists|]. split; [exact V|]. repeat split; auto. Qed.

Lemma numst_none q u : numst q TNone u -> False.
Proof.
  destruct q; cbn [numst]; try tauto; try (intros [H _]; discriminate H).
  - intros (t & v & w & _ & _ & _ & _ & _ & N). congruence.
  - intros ([] & H & _); discriminate H.
  - intros ([] & ip & H & _); discriminate H.
  - intros (? & ? & ? & H & _); discriminate H.
  - intros (? & ? & H & _); discriminate H.
  - intros (? & ? & ? & H & _); discriminate H.
  - intros (? & ? & ? & ? & H & _); discriminate H.
  - intros (? & ? & ? & H & _); discriminate H.
Qed.

Lemma clean_cut h1 lit : clean (h1 ++ lit ++ ["/"%char]) -> lit = s2b "tru" \/ lit = s2b "fals" \/ lit = s2b "nul" -> False.
Proof.
  intros H E. specialize (H h1 []) as (H1 & H2 & H3). destruct E as [->|[->| ->]]; [apply H1|apply H2|apply H3]; reflexivity.
Qed.

Lemma numty_int neg : is_numty (int_type neg) = true.
Proof. destruct neg; reflexivity. Qed.

Lemma jg_num h e q b ty stk h1 u c : h = h1 ++ u -> ctx h1 stk e -> vmode stk -> numst q ty u -> clean (h ++ [c]) ->
  jgood (h ++ [c]) e (kjchar (Core q b ty false false 0 stk (rev u)) c).
Proof.
  intros -> C V N CL. destruct (char_class c) as [k|] eqn:Ec; [|unfold kjchar; rewrite Ec; apply jg_no].
  rewrite (kj_push _ _ _ _ _ _ _ k Ec) by (intros ->; destruct (numst_none _ _ N)).
  assert (CH : forall d, class_chr k = Some d -> c = d) by (intros d; apply class_one, Ec).
  assert (DG : k = C_ZERO \/ k = C_DIGIT -> is_digit c = true) by (apply class_digit, Ec).
  assert (GO : forall q' ty', numst q' ty' (u ++ [c]) -> JI ((h1 ++ u) ++ [c]) e (Core q' b ty' false false 0 stk (c :: rev u))).
  { intros q' ty' M. change (c :: rev u) with (rev [c] ++ rev u). rewrite <- rev_app_distr.
    apply (JNumb _ _ q' b ty' stk h1 (u ++ [c])); auto. now rewrite app_assoc. }
  assert (WS : ending q = true -> is_white k = true -> jgood ((h1 ++ u) ++ [c]) e (kyes (Core SOK b ty false false 0 stk (c :: rev u)))).
  { intros Q W. apply jg_yes, GO. cbn [numst]. apply vfin_ws; [apply (numst_fin q); assumption|apply (class_white _ _ Ec W)]. }
  assert (FN : ending q = true -> fin stk (h1 ++ u) e ty (rev u)).
  { intros Q. apply fin_vfin; [exact C|]. apply (numst_fin q); assumption. }
  assert (TS : forall q', q' = q -> ending q = true ->
     forall a, trans q k = a -> match a with M3 | M7 | M8 | ACB => jgood ((h1 ++ u) ++ [c]) e (kjact (Core q b ty false false 0 stk (c :: rev u)) a) | _ => True end).
  { intros q' _ Q a T. destruct a; try exact I.
    - apply term_ACB; [exact V|destruct q; split; discriminate|apply FN, Q|].
      destruct q; try discriminate Q; destruct k; try discriminate T; apply CH; reflexivity.
    - apply term_M3; [apply FN, Q|]. destruct q; try discriminate Q; destruct k; try discriminate T; apply CH; reflexivity.
    - apply term_M7; [apply FN, Q|]. destruct q; try discriminate Q; destruct k; try discriminate T; apply CH; reflexivity.
    - apply term_M8; [apply FN, Q|]. destruct q; try discriminate Q; destruct k; try discriminate T; apply CH; reflexivity. }
  specialize (TS q eq_refl).
  assert (YES : forall q' ty', numst q' ty' (u ++ [c]) -> jgood ((h1 ++ u) ++ [c]) e (kyes (Core q' b ty' false false 0 stk (c :: rev u))))
    by (intros q' ty' M; apply jg_yes, GO, M).
  assert (CUT : k = C_SLASH -> u = s2b "tru" \/ u = s2b "fals" \/ u = s2b "nul" -> False).
  { intros -> H. rewrite (CH _ eq_refl), <- app_assoc in CL. exact (clean_cut _ _ CL H). }
  assert (EX : forall m e0, mant m -> u ++ [c] = m ++ [e0] -> k = C_LOW_E \/ k = C_E -> numst SE1 TFloat (u ++ [c])).
  { intros m e0 M E K. exists m, e0. split; [reflexivity|]. split; [exact M|]. split; [|exact E].
    apply snoc_inj in E as [_ <-]. destruct K as [-> | ->]; [left|right]; apply CH; reflexivity. }
  assert (DE : forall neg, ty = int_type neg -> k = C_LOW_E \/ k = C_E -> numst SE1 TFloat (u ++ [c]) ->
     jgood ((h1 ++ u) ++ [c]) e (kjact (Core q b ty false false 0 stk (c :: rev u)) ADE)).
  { intros neg -> _ M. cbn [kjact]. unfold kjassert. cbn [k_type]. rewrite numty_int. apply jg_after; cbv beta. rewrite app_nil_r. apply YES, M. }
  assert (DF : forall neg ip, ty = int_type neg -> int_part ip -> u = minus neg ++ ip -> k = C_POINT ->
     jgood ((h1 ++ u) ++ [c]) e (kjact (Core q b ty false false 0 stk (c :: rev u)) ADF)).
  { intros neg ip -> Hi Hu ->. rewrite (CH _ eq_refl) in *. cbn [kjact]. unfold kjassert. cbn [k_type]. rewrite numty_int.
    apply jg_after; cbv beta. cbn [k_buf]. change (aeqb "." ".") with true. apply jg_after; cbv beta. rewrite !app_nil_r. apply YES.
    exists neg, ip, []. repeat split; auto. rewrite Hu. lists. }
  destruct q; try contradiction N.
  - destruct k; cbn [trans nth class_idx jrow]; try apply jg_no; try (apply (WS eq_refl eq_refl)); try (exact (TS eq_refl _ eq_refl)).
  - destruct N as [-> ->]. destruct k; cbn [trans nth class_idx jrow]; try apply jg_no; apply YES.
    + rewrite (CH _ eq_refl). exists true. split; reflexivity.
    + destruct (class_nonzero _ Ec) as [D1 D2]. exists true, [c]. repeat split; [right; exists c, []; repeat split; auto|intros [=]; congruence].
  - destruct N as (neg & Ety & Eu).
    destruct k; cbn [trans nth class_idx jrow]; try apply jg_no; try (apply (WS eq_refl eq_refl)); try (exact (TS eq_refl _ eq_refl)).
    apply (DF neg (s2b "0")); auto. apply zero_part.
  - destruct N as (neg & ip & Ety & Hi & N0 & Eu).
    assert (MA : mant u) by (left; exists neg, ip; auto).
    destruct k; cbn [trans nth class_idx jrow]; try apply jg_no; try (apply (WS eq_refl eq_refl)); try (exact (TS eq_refl _ eq_refl)).
    + apply (DF neg ip); auto.
    + apply YES. destruct (int_snoc ip c Hi N0 (DG ltac:(auto))) as [I1 I2]. exists neg, (ip ++ [c]). repeat split; auto. rewrite Eu. lists.
    + apply YES. destruct (int_snoc ip c Hi N0 (DG ltac:(auto))) as [I1 I2]. exists neg, (ip ++ [c]). repeat split; auto. rewrite Eu. lists.
    + apply (DE neg); auto. apply (EX u c); auto.
    + apply (DE neg); auto. apply (EX u c); auto.
  - destruct N as (neg & ip & fp & -> & Hi & Hf & Eu).
    assert (MA : mant u) by (right; exists neg, ip, fp; auto).
    assert (DD : k = C_ZERO \/ k = C_DIGIT -> numst SFR TFloat (u ++ [c])).
    { intros K. exists neg, ip, (fp ++ [c]). repeat split; auto; [apply digits_snoc; auto|rewrite Eu; lists]. }
    destruct k; cbn [trans nth class_idx jrow]; try apply jg_no; try (apply (WS eq_refl eq_refl)); try (exact (TS eq_refl _ eq_refl)).
    + apply YES, DD; auto.
    + apply YES, DD; auto.
    + apply YES. apply (EX u c); auto.
    + apply YES. apply (EX u c); auto.
  - destruct N as (m & e0 & -> & M & E0 & Eu).
    assert (DD : k = C_ZERO \/ k = C_DIGIT -> numst SE3 TFloat (u ++ [c])).
    { intros K. exists m, e0, [], [c]. repeat split; auto; [unfold digits; cbn; rewrite (DG K); reflexivity|discriminate|rewrite Eu; lists]. }
    destruct k; cbn [trans nth class_idx jrow]; try apply jg_no.
    + apply YES. exists m, e0, c. split; [reflexivity|]. split; [exact M|]. split; [exact E0|]. split; [left; apply CH; reflexivity|rewrite Eu; lists].
    + apply YES. exists m, e0, c. split; [reflexivity|]. split; [exact M|]. split; [exact E0|]. split; [right; apply CH; reflexivity|rewrite Eu; lists].
    + apply YES, DD; auto.
    + apply YES, DD; auto.
  - destruct N as (m & e0 & s & -> & M & E0 & S0 & Eu).
    assert (DD : k = C_ZERO \/ k = C_DIGIT -> numst SE3 TFloat (u ++ [c])).
    { intros K. exists m, e0, [s], [c]. repeat split; auto; [|unfold digits; cbn; rewrite (DG K); reflexivity|discriminate|rewrite Eu; lists].
      right. destruct S0 as [-> | ->]; auto. }
    destruct k; cbn [trans nth class_idx jrow]; try apply jg_no; apply YES, DD; auto.
  - destruct N as (m & e0 & sg & ds & -> & M & (X1 & X2 & X3 & X4) & Eu).
    assert (DD : k = C_ZERO \/ k = C_DIGIT -> numst SE3 TFloat (u ++ [c])).
    { intros K. exists m, e0, sg, (ds ++ [c]). split; [reflexivity|]. split; [exact M|]. split; [|rewrite Eu; lists].
      split; [exact X1|]. split; [exact X2|]. split; [apply digits_snoc; auto|]. destruct ds; discriminate. }
    destruct k; cbn [trans nth class_idx jrow]; try apply jg_no; try (apply (WS eq_refl eq_refl)); try (exact (TS eq_refl _ eq_refl)); apply YES, DD; auto.
  - destruct N as [-> ->]. destruct k; cbn [trans nth class_idx jrow]; try apply jg_no. apply YES. rewrite (CH _ eq_refl). split; reflexivity.
  - destruct N as [-> ->]. destruct k; cbn [trans nth class_idx jrow]; try apply jg_no. apply YES. rewrite (CH _ eq_refl). split; reflexivity.
  - destruct N as [-> ->]. destruct k; cbn [trans nth class_idx jrow]; try apply jg_no; [exfalso; apply CUT; auto|].
    apply YES. rewrite (CH _ eq_refl). apply (lit_fin _ (s2b "true") (TBool true)); [constructor|reflexivity|discriminate|discriminate].
  - destruct N as [-> ->]. destruct k; cbn [trans nth class_idx jrow]; try apply jg_no. apply YES. rewrite (CH _ eq_refl). split; reflexivity.
  - destruct N as [-> ->]. destruct k; cbn [trans nth class_idx jrow]; try apply jg_no. apply YES. rewrite (CH _ eq_refl). split; reflexivity.
  - destruct N as [-> ->]. destruct k; cbn [trans nth class_idx jrow]; try apply jg_no. apply YES. rewrite (CH _ eq_refl). split; reflexivity.
  - destruct N as [-> ->]. destruct k; cbn [trans nth class_idx jrow]; try apply jg_no; [exfalso; apply CUT; auto|].
    apply YES. rewrite (CH _ eq_refl). apply (lit_fin _ (s2b "false") (TBool false)); [constructor|reflexivity|discriminate|discriminate].
  - destruct N as [-> ->]. destruct k; cbn [trans nth class_idx jrow]; try apply jg_no. apply YES. rewrite (CH _ eq_refl). split; reflexivity.
  - destruct N as [-> ->]. destruct k; cbn [trans nth class_idx jrow]; try apply jg_no. apply YES. rewrite (CH _ eq_refl). split; reflexivity.
  - destruct N as [-> ->]. destruct k; cbn [trans nth class_idx jrow]; try apply jg_no; [exfalso; apply CUT; auto|].
    apply YES. rewrite (CH _ eq_refl). apply (lit_fin _ (s2b "null") TNul); [constructor|reflexivity|discriminate|discriminate].
  - destruct N as (neg & ip & fp & -> & Hi & Hf & Eu).
    assert (MA : mant u) by (right; exists neg, ip, fp; auto).
    assert (DD : k = C_ZERO \/ k = C_DIGIT -> numst SFR TFloat (u ++ [c])).
    { intros K. exists neg, ip, (fp ++ [c]). repeat split; auto; [apply digits_snoc; auto|rewrite Eu; lists]. }
    destruct k; cbn [trans nth class_idx jrow]; try apply jg_no; try (apply (WS eq_refl eq_refl)); try (exact (TS eq_refl _ eq_refl)).
    + apply YES, DD; auto.
    + apply YES, DD; auto.
    + apply YES. apply (EX u c); auto.
    + apply YES. apply (EX u c); auto.
Qed.

(** *** Strings *)
Lemma jg_string h e q b esc hi stk buf h1 c : strst h1 h q esc hi buf -> (ctx h1 stk e /\ vmode stk) \/ kctx h1 stk e ->
  jgood (h ++ [c]) e (kjchar (Core q b TString esc false hi stk buf) c).
Proof.
  intros H S.
  assert (D : (q = SST /\ c = bchr 34) \/ (q = SST -> c <> bchr 34)).
  { destruct (aeqb c (bchr 34)) eqn:E; [apply aeqb_eq in E|apply aeqb_neq in E; auto].
    destruct q; auto; right; discriminate. }
  destruct D as [[-> ->]|D].
  - inversion H as [mid s E C| |? ? ? ? hs ? ? ? ? ? Q| | ]; subst; [|destruct hs as [|? [|? [|? ?]]]; discriminate Q].
    destruct S as [[C1 (m & t & -> & V)]|C1].
    + rewrite kj_quote by exact V. unfold jgood. cbn [fst snd]. apply JIdle. rewrite rev_involutive.
      apply (POk h1 (m :: t) e (quoted mid) (TStr s) []); [exact C1|apply JStr, C|constructor|unfold quoted; lists|reflexivity].
    + pose proof C1 as C2. destruct C2 as [h0 stk e0 t m h' e' ? ? ? ?].
      rewrite kj_quote_key. unfold jgood. cbn [fst snd]. apply JIdle. rewrite rev_involutive.
      apply (PCo h' (MKey :: stk) e' mid s []); [exact C1|exact C|constructor|unfold quoted; lists|reflexivity].
  - destruct (str_step h1 h q b esc hi stk buf c H D) as [E G]. unfold jgood.
    destruct (snd (kjchar _ c)) as [[p [|]]| | | |]; auto. rewrite E, app_nil_r.
    destruct G as (q' & esc' & hi' & buf' & -> & G). destruct S as [[C1 V]|C1]; [eapply JStrv; eauto|eapply JStrk; eauto].
Qed.

Lemma JI_char h e p c : JI h e p -> clean (h ++ [c]) -> jgood (h ++ [c]) e (kjchar p c).
Proof.
  intros [q b stk P|b stk h1 E P|b stk h1 t E N S P|b stk h1 t E N P|q b ty stk h1 u E C V N|q b esc hi stk buf h1 X C V|q b esc hi stk buf h1 X C] CL.
  - apply jg_idle, P.
  - eapply jg_comment1; eauto.
  - eapply jg_comment2; eauto.
  - eapply jg_comment3; eauto.
  - eapply jg_num; eauto.
  - eapply jg_string; eauto.
  - eapply jg_string; eauto.
Qed.

(** ** The driver *)

Lemma clean_prefix a b : clean (a ++ b) -> clean a.
Proof.
  intros H x y. specialize (H x (y ++ b)) as (H1 & H2 & H3).
  split; [|split]; intros ->; [apply H1|apply H2|apply H3]; lists.
Qed.

Lemma kcalls_app a b c0 : kcalls c0 (a ++ b) = do c1 <- kcalls c0 a; kcalls c1 b.
Proof. revert c0. induction a as [|y a IH]; intros c0; [reflexivity|]. cbn [app kcalls]. destruct (kcall c0 y); cbn [rbind]; auto. Qed.

(** The end of the document. *)
Lemma done_root h e p : JI h e p -> fst (kjdone p) = true -> exists t v w, h = t ++ w /\ gval t v /\ cwsp w /\ e = tevents v.
Proof.
  assert (NV : forall stk, vmode stk -> forall q b ty esc cm hi buf, fst (kjdone (Core q b ty esc cm hi stk buf)) = true -> False).
  { intros stk (m & t & -> & V) q b ty esc cm hi buf. unfold kjdone, kjpop. cbn [k_state k_stack].
    destruct q; try discriminate. destruct m; discriminate. }
  intros [q b stk P|b stk h1 E P|b stk h1 t E N S P|b stk h1 t E N P|q b ty stk h1 u E C V N|q b esc hi stk buf h1 X C V|q b esc hi stk buf h1 X C] D.
  - unfold kjdone in D. cbn [k_state] in D. destruct q; try discriminate D. unfold kjpop in D. cbn [k_stack] in D.
    destruct stk as [|[| | |] stk]; try discriminate D.
    inversion P as [| | | | |h0 stk0 e0 t v w h' e' C V W E1 E2]; subst. inversion C; subst. exists t, v, w. auto.
  - discriminate D.
  - discriminate D.
  - discriminate D.
  - destruct (NV _ V _ _ _ _ _ _ _ D).
  - destruct (NV _ V _ _ _ _ _ _ _ D).
  - destruct C. unfold kjdone, kjpop in D. cbn [k_state k_stack] in D. destruct q; discriminate D.
Qed.

Lemma feed_sound c0 cs : forall h e p c d rest, JI h e p -> clean (h ++ cs) -> kcalls c0 e = Ok c -> cb_st c = S_OK ->
  binv (cb_b c) -> kfeed (kd_of p c) cs = Ok (d, rest) -> kd_st d = S_END ->
  exists t v w, h ++ cs = t ++ w ++ rest /\ gval t v /\ cwsp w /\ kcalls c0 (tevents v) = Ok (Cb S_OK (kd_depth d) (kd_b d)).
Proof.
  assert (SET : forall h e p c, JI h e p -> kcalls c0 e = Ok c -> cb_st c = S_OK -> kd_st (ksettle (kd_of p c)) = S_END ->
    exists t v w, h = t ++ w /\ gval t v /\ cwsp w /\ kcalls c0 (tevents v) = Ok (Cb S_OK (cb_depth c) (cb_b c))).
  { intros h e p c J KC ST E. unfold ksettle, kd_of in E. cbn [kd_p] in E. pose proof (done_root h e p J) as DR.
    destruct (kjdone p) as [ok p1]. cbn [fst] in DR. destruct ok; [|discriminate E].
    destruct (DR eq_refl) as (t & v & w & -> & V & W & ->). exists t, v, w. split; [reflexivity|]. split; [exact V|]. split; [exact W|].
    rewrite KC, <- ST. destruct c; reflexivity. }
  induction cs as [|x cs IH]; intros h e p c d rest J CL KC ST BI KF E.
  - assert (L : klive (kd_of p c) = true).
    { unfold klive, kd_of. cbn [kd_st kd_b]. rewrite ST. destruct BI as (l & w & -> & _). destruct l; reflexivity. }
    cbn [kfeed] in KF. rewrite L in KF. injection KF as <- <-.
    destruct (SET _ _ _ _ J KC ST E) as (t & v & w & -> & V & W & K). exists t, v, w. split; [lists|]. split; [exact V|]. split; [exact W|].
    unfold ksettle, kd_of. cbn [kd_p kd_depth kd_b]. destruct (kjdone p). exact K.
  - assert (L : klive (kd_of p c) = true).
    { unfold klive, kd_of. cbn [kd_st kd_b]. rewrite ST. destruct BI as (l & w & -> & _). destruct l; reflexivity. }
    cbn [kfeed] in KF. rewrite L in KF.
    assert (CL1 : clean (h ++ [x])) by (apply (clean_prefix _ cs); rewrite <- app_assoc; exact CL).
    pose proof (JI_char h e p x J CL1) as G.
    unfold kd_char in KF. cbn [kd_of kd_p kd_st kd_depth kd_b] in KF.
    replace (Cb (cb_st c) (cb_depth c) (cb_b c)) with c in KF by (destruct c; reflexivity).
    unfold jgood in G. destruct (kjchar p x) as [evs r]. cbn [fst snd] in G.
    destruct (kcalls c evs) as [c1| | | |] eqn:K1; cbn [rbind] in KF; try discriminate KF.
    assert (ST1 : cb_st c1 = S_OK) by (destruct (kcalls_inv _ _ _ BI K1) as [_ [Q|Q]]; congruence).
    assert (BI1 : binv (cb_b c1)) by (destruct (kcalls_inv _ _ _ BI K1); assumption).
    assert (KC1 : kcalls c0 (e ++ evs) = Ok c1) by (rewrite kcalls_app, KC; exact K1).
    assert (DEAD : forall d0 cs0, klive d0 = false -> kfeed d0 cs0 = Ok (d0, cs0)) by (intros d0 [|y cs0] Q; cbn [kfeed]; rewrite Q; reflexivity).
    destruct r as [[p1 ok]| | | |]; cbn [rbind] in KF; try discriminate KF. cbn [kd_st kd_depth] in KF. rewrite ST1 in KF. destruct ok.
    + destruct (cb_depth c1 =? 0)%Z.
      * set (d1 := ksettle _) in KF. assert (Ed : d1 = ksettle (kd_of p1 c1)) by reflexivity.
        assert (L1 : klive d1 = false) by (unfold d1, ksettle, klive; cbn [kd_p]; destruct (kjdone p1) as [[|] ?]; reflexivity).
        rewrite (DEAD _ _ L1) in KF. injection KF as <- <-.
        rewrite Ed in E. destruct (SET _ _ _ _ G KC1 ST1 E) as (t & v & w & E1 & V & W & K). exists t, v, w. split; [|split; [exact V|split; [exact W|]]].
        -- change (x :: cs) with ([x] ++ cs). rewrite !app_assoc, E1. reflexivity.
        -- rewrite Ed. unfold ksettle, kd_of. cbn [kd_p kd_depth kd_b]. destruct (kjdone p1). exact K.
      * assert (Ek : Kd p1 (cb_st c1) (cb_depth c1) (cb_b c1) = kd_of p1 c1) by reflexivity. rewrite ?ST1 in Ek.
        change (x :: cs) with ([x] ++ cs). rewrite app_assoc.
        apply (IH (h ++ [x]) (e ++ evs) p1 c1); auto; [rewrite <- app_assoc; exact CL|]. rewrite <- Ek. exact KF.
    + rewrite DEAD in KF by reflexivity. injection KF as <- <-. discriminate E.
Qed.

(** ** What the callbacks of a tree build *)

Definition begun (s : jstatus) : jstatus := match s with S_START => S_START | S_ERROR => S_ERROR | S_END => S_END | S_DONE => S_DONE | _ => S_OK end.
Definition accepts (a : action) : Prop := match a with AList _ => True | AMap ek _ _ => ek = false | ABase s _ => s = true end.

Lemma begun2 s : begun (begun s) = begun s.
Proof. destruct s; reflexivity. Qed.

Lemma scalar_calls v e s dp a t r dn c' : accepts a ->
  (forall c, kcall c e = do b <- build (cb_b c) (BScalar v); Ok (Cb (begun (cb_st c)) (cb_depth c + 0) b)) ->
  kcalls (Cb s dp (BState (a :: t) r dn)) [e] = Ok c' -> c' = Cb (begun s) dp (BState (put v a :: t) r dn).
Proof.
  intros A He. cbn [kcalls]. rewrite He. cbn [cb_b cb_st cb_depth build b_acts]. unfold set_value. cbn [b_acts b_result b_done].
  destruct a as [s0 v0|ek k m|l]; cbn [accepts] in A; subst; cbn [rbind put]; rewrite Z.add_0_r; intros [= <-]; reflexivity.
Qed.

Lemma finish_calls s dp v0 top a acts r dn : accepts a -> (match top with AMap _ _ m => v0 = VMap m | AList l => v0 = VList l | ABase _ _ => False end) ->
  forall ev k, (kcall (Cb s dp (BState (top :: a :: acts) r dn)) ev = do b <- finish (BState (top :: a :: acts) r dn); Ok (Cb (begun s) (dp + k) b)) ->
  kcall (Cb s dp (BState (top :: a :: acts) r dn)) ev = Ok (Cb (begun s) (dp + k) (BState (put v0 a :: acts) r dn)).
Proof.
  intros A T ev k He. rewrite He. unfold finish. cbn [cb_b cb_st cb_depth b_acts b_result b_done].
  destruct top as [? ?|? ? m|l]; [contradiction| |]; subst v0;
    unfold set_value; cbn [b_acts b_result b_done]; destruct a as [s0 v0|ek k0 m0|l0]; cbn [accepts] in A; subst; reflexivity.
Qed.

Lemma tree_calls t : forall s dp a acts r dn c', accepts a -> kcalls (Cb s dp (BState (a :: acts) r dn)) (tevents t) = Ok c' ->
  exists v, tval t = Ok v /\ c' = Cb (begun s) dp (BState (put v a :: acts) r dn).
Proof.
  induction t as [|b|sg n|sg D E|x|l IH|m IH] using jtree_ind'; intros s dp a acts r dn c' A K.
  - eexists. split; [reflexivity|]. revert K. apply scalar_calls; [exact A|intros; reflexivity].
  - eexists. split; [reflexivity|]. revert K. destruct b; apply scalar_calls; try exact A; intros; reflexivity.
  - destruct sg; (eexists; split; [reflexivity|]); revert K; apply scalar_calls; try exact A; intros; reflexivity.
  - eexists. split; [reflexivity|]. revert K. apply scalar_calls; [exact A|intros; reflexivity].
  - cbn [tval]. destruct (str_value x) as [v| | | |] eqn:S;
      [|cbn [tevents kcalls] in K; unfold kcall in K; rewrite S in K; discriminate K..].
    exists v. split; [reflexivity|]. revert K. apply scalar_calls; auto. intros c. unfold kcall. rewrite S. reflexivity.
  - rewrite tval_arr. cbn [tevents kcalls] in K.
    change (kcall _ JArrayBegin) with (Ok (Cb (begun s) (dp + 1) (BState (AList [] :: a :: acts) r dn))) in K. cbn [rbind] in K.
    rewrite kcalls_app in K.
    assert (L : forall l, Forall (fun t => forall s dp a acts r dn c', accepts a -> kcalls (Cb s dp (BState (a :: acts) r dn)) (tevents t) = Ok c' ->
                  exists v, tval t = Ok v /\ c' = Cb (begun s) dp (BState (put v a :: acts) r dn)) l ->
              forall done dp c1, kcalls (Cb (begun s) dp (BState (AList done :: a :: acts) r dn)) (flat_map tevents l) = Ok c1 ->
              exists vs, tvals l = Ok vs /\ c1 = Cb (begun s) dp (BState (AList (done ++ vs) :: a :: acts) r dn)).
    { clear. induction 1 as [|x l Hx _ IH]; intros done dp c1 K; cbn [flat_map tvals] in *.
      - injection K as <-. exists []. split; [reflexivity|now rewrite app_nil_r].
      - rewrite kcalls_app in K. destruct (kcalls _ (tevents x)) as [c2| | | |] eqn:K2; try discriminate K. cbn [rbind] in K.
        destruct (Hx (begun s) _ (AList done) _ _ _ _ I K2) as (v & -> & ->). rewrite begun2 in K. cbn [put] in K.
        destruct (IH _ _ _ K) as (vs & -> & ->). cbn [rbind]. exists (v :: vs). split; [reflexivity|]. rewrite <- app_assoc. reflexivity. }
    destruct (kcalls _ (flat_map tevents l)) as [c1| | | |] eqn:K1; try discriminate K. cbn [rbind] in K.
    destruct (L l IH [] _ _ K1) as (vs & -> & ->). cbn [rbind app kcalls] in *. exists (VList vs). split; [reflexivity|].
    rewrite (finish_calls _ _ (VList vs) (AList vs) a acts r dn A eq_refl) with (k := (-1)%Z) in K by (intros; reflexivity).
    cbn [rbind] in K. rewrite begun2 in K. injection K as <-. f_equal. lia.
  - rewrite tval_obj. cbn [tevents kcalls] in K.
    change (kcall _ JObjectBegin) with (Ok (Cb (begun s) (dp + 1) (BState (AMap true [] [] :: a :: acts) r dn))) in K. cbn [rbind] in K.
    rewrite kcalls_app in K.
    assert (L : forall m, Forall (fun kv => forall s dp a acts r dn c', accepts a -> kcalls (Cb s dp (BState (a :: acts) r dn)) (tevents (snd kv)) = Ok c' ->
                  exists v, tval (snd kv) = Ok v /\ c' = Cb (begun s) dp (BState (put v a :: acts) r dn)) m ->
              forall k0 done dp c1, kcalls (Cb (begun s) dp (BState (AMap true k0 done :: a :: acts) r dn)) (flat_map (fun kv => JKey (fst kv) :: tevents (snd kv)) m) = Ok c1 ->
              exists vs k1, tmems m done = Ok vs /\ c1 = Cb (begun s) dp (BState (AMap true k1 vs :: a :: acts) r dn)).
    { clear. induction 1 as [|[k x] m Hx _ IH]; intros k0 done dp c1 K; cbn [flat_map tmems fst snd] in *.
      - injection K as <-. exists done, k0. split; reflexivity.
      - cbn [app kcalls] in K.
        replace (kcall _ (JKey k)) with (Ok (Cb (begun s) dp (BState (AMap false k done :: a :: acts) r dn))) in K
          by (unfold kcall; cbn; rewrite Z.add_0_r; destruct s; reflexivity).
        cbn [rbind] in K.
        rewrite kcalls_app in K. destruct (kcalls _ (tevents x)) as [c2| | | |] eqn:K2; try discriminate K. cbn [rbind] in K.
        destruct (Hx (begun s) _ (AMap false k done) _ _ _ _ eq_refl K2) as (v & -> & ->). rewrite begun2 in K. cbn [put] in K.
        destruct (IH _ _ _ _ K) as (vs & k1 & E & ->). cbn [rbind]. exists vs, k1. split; [exact E|reflexivity]. }
    destruct (kcalls _ (flat_map _ m)) as [c1| | | |] eqn:K1; try discriminate K. cbn [rbind] in K.
    destruct (L m IH [] [] _ _ K1) as (vs & k1 & -> & ->). cbn [rbind kcalls] in *. exists (VMap vs). split; [reflexivity|].
    rewrite (finish_calls _ _ (VMap vs) (AMap true k1 vs) a acts r dn A eq_refl) with (k := (-1)%Z) in K by (intros; reflexivity).
    cbn [rbind] in K. rewrite begun2 in K. injection K as <-. f_equal. lia.
Qed.

Theorem accepted_document w c r v rest : wsp w -> c = "["%char \/ c = "{"%char -> clean (c :: r) ->
  flat_parse (w ++ c :: r) = Ok (v, rest) ->
  exists body w2 t, c :: r = body ++ w2 ++ rest /\ gval body t /\ cwsp w2 /\ root t /\ tval t = Ok v.
Proof.
  intros W HC CL H. unfold flat_parse in H. rewrite (kfeed_start_ws w _ W) in H.
  set (c0 := Cb S_BEGIN 0 (BState [ABase true VNull] VNull false)).
  assert (S1 : exists p e c1, JI [c] e p /\ kcalls c0 e = Ok c1 /\ cb_st c1 = S_OK /\ binv (cb_b c1) /\ kfeed kstart (c :: r) = kfeed (kd_of p c1) r).
  { destruct HC as [-> | ->].
    - exists (K SAR SGO TNone [MArray; MDone] []), [JArrayBegin], (Cb S_OK 1 (BState [AList []; ABase true VNull] VNull false)).
      split; [|split; [reflexivity|split; [reflexivity|split; [|reflexivity]]]].
      + apply JIdle. apply (PAr [] [MDone] [] []); [constructor|constructor|reflexivity|reflexivity].
      + exists [AList []], VNull. repeat split. repeat constructor.
    - exists (K SOB SGO TNone [MKey; MDone] []), [JObjectBegin], (Cb S_OK 1 (BState [AMap true [] []; ABase true VNull] VNull false)).
      split; [|split; [reflexivity|split; [reflexivity|split; [|reflexivity]]]].
      + apply JIdle. apply (POb [] [MDone] [] []); [constructor|constructor|reflexivity|reflexivity].
      + exists [AMap true [] []], VNull. repeat split. repeat constructor. }
  destruct S1 as (p & e & c1 & J & KC & ST & BI & E). rewrite E in H.
  destruct (kfeed (kd_of p c1) r) as [[d rest']| | | |] eqn:KF; cbn [rbind] in H; try discriminate H.
  destruct (kd_st d) eqn:SD; try discriminate H.
  destruct (feed_sound c0 r [c] e p c1 d rest' J CL KC ST BI KF SD) as (body & t & w2 & E2 & V & W2 & K).
  destruct (tree_calls t S_BEGIN 0%Z (ABase true VNull) [] VNull false _ eq_refl K) as (v' & Tv & Q). injection Q as _ Qb. rewrite Qb in H. injection H as <- <-.
  exists body, w2, t. split; [exact E2|]. split; [exact V|]. split; [exact W2|]. split; [|exact Tv].
  cbn [app] in E2. inversion V; subst; cbn [root]; auto.
  all: try (injection E2 as E3 _; destruct HC as [X|X]; rewrite X in E3; discriminate E3).
  assert (HD : match body with x :: _ => is_digit x = true \/ x = "-"%char | [] => False end).
  { assert (X : forall neg ip r0, int_part ip -> match minus neg ++ ip ++ r0 with x :: _ => is_digit x = true \/ x = "-"%char | [] => False end).
    { intros [] ip r0 Hi; [right; reflexivity|]. destruct Hi as [->|(x & ds & -> & Hx & _)]; left; [reflexivity|exact Hx]. }
    match goal with Y : lib_num _ _ |- _ => inversion Y; subst end; try (apply X; assumption). rewrite <- (app_nil_r ip). apply X. assumption. }
  destruct body as [|x body]; [contradiction|]. injection E2 as E3 _. subst x.
  destruct HC as [-> | ->]; destruct HD as [HD|HD]; discriminate HD.
Qed.
