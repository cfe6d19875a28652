(** The text a Variant is written as, by structural recursion (specification side). *)
From Verif Require Import Base CNum Float FloatText Value Emit Base64Spec ParserInput JSONEmitter.
Open Scope N_scope.

(** Line break and indentation at nesting [d]. *)
Definition nl (p : jparams) (d : N) : bytes :=
  if j_pretty p then bchr 10 :: repeat " "%char (N.to_nat (d * j_indent p)) else [].

Fixpoint join (sep : bytes) (l : list bytes) : bytes :=
  match l with
  | [] => []
  | [x] => x
  | x :: t => x ++ sep ++ join sep t
  end.

Definition str_text (s : bytes) : bytes := [quote_char] ++ flat_map esc_char s ++ [quote_char].

Definition flt_text (p : jparams) (d : spec_float) : bytes :=
  if (f_nan d || f_inf d)%bool then s2b "null" else print_g (Z.of_N (j_prec p)) d.

Fixpoint vtext (p : jparams) (d : N) (v : value) : bytes :=
  match v with
  | VNull => s2b "null"
  | VBool true => s2b "true"
  | VBool false => s2b "false"
  | VInt z => dec_of_Z z
  | VUns n => dec_of_N n
  | VFlt x => flt_text p (d_of_ld x)
  | VStr s => str_text (c_str s)
  | VBlob b => [quote_char] ++ s2b "\u0000BLOB" ++ rfc4648 (List.concat b) ++ [quote_char]
  | VList l => s2b "[" ++ join (s2b ",") (List.map (fun x => nl p (d + 1) ++ vtext p (d + 1) x) l) ++ nl p d ++ s2b "]"
  | VMap m => s2b "{" ++ join (s2b ",") (List.map (fun kv => nl p (d + 1) ++ str_text (c_str (fst kv)) ++ s2b ": " ++
                                                    vtext p (d + 1) (snd kv)) m) ++ nl p d ++ s2b "}"
  end.

(** The sizes the 32-bit arithmetic of the emitter copes with, and the values it
    can write at all: no empty buffer in a blob, and in strict mode no blob and no
    NaN or infinity. *)
Definition flt_fits (p : jparams) (x : spec_float) : Prop :=
  (j_strict p = true -> (f_nan x || f_inf x)%bool = false) /\ llen (flt_text p x) < 2^32.

Fixpoint jfits (p : jparams) (d : N) (v : value) : Prop :=
  match v with
  | VNull | VBool _ => True
  | VInt z => llen (dec_of_Z z) < 2^32
  | VUns n => llen (dec_of_N n) < 2^32
  | VFlt x => flt_fits p (d_of_ld x)
  | VStr s => llen (c_str s) < 2^32
  | VBlob b => j_strict p = false /\ Forall (fun x => x <> []) b /\ llen (rfc4648 (List.concat b)) < 2^32
  | VList l => (d + 1) * j_indent p < 2^32 /\
      (fix go l := match l with [] => True | x :: t => jfits p (d + 1) x /\ go t end) l
  | VMap m => (d + 1) * j_indent p < 2^32 /\
      (fix go m := match m with [] => True
                   | kv :: t => (llen (c_str (fst kv)) < 2^32 /\ jfits p (d + 1) (snd kv)) /\ go t end) m
  end.

Lemma jfits_list p d l : jfits p d (VList l) <-> (d + 1) * j_indent p < 2^32 /\ Forall (jfits p (d + 1)) l.
Proof.
  cbn [jfits].
  assert (K : (fix go l := match l with [] => True | x :: t => jfits p (d + 1) x /\ go t end) l <-> Forall (jfits p (d + 1)) l).
  { induction l as [|x l IH]; split; intros H.
    - constructor.
    - exact I.
    - destruct H as [H1 H2]. constructor; [exact H1|]. apply IH, H2.
    - inversion H; subst. split; [assumption|]. apply IH. assumption. }
  tauto.
Qed.

Lemma jfits_map p d m : jfits p d (VMap m) <-> (d + 1) * j_indent p < 2^32 /\
  Forall (fun kv => llen (c_str (fst kv)) < 2^32 /\ jfits p (d + 1) (snd kv)) m.
Proof.
  cbn [jfits].
  assert (K : (fix go m := match m with [] => True
                   | kv :: t => (llen (c_str (fst kv)) < 2^32 /\ jfits p (d + 1) (snd kv)) /\ go t end) m <->
              Forall (fun kv => llen (c_str (fst kv)) < 2^32 /\ jfits p (d + 1) (snd kv)) m).
  { induction m as [|x m IH]; split; intros H.
    - constructor.
    - exact I.
    - destruct H as [H1 H2]. constructor; [exact H1|]. apply IH, H2.
    - inversion H; subst. split; [assumption|]. apply IH. assumption. }
  tauto.
Qed.
