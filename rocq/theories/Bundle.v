(** Model of src/BundleHdrEmitter.h, src/BundleHdrEmitter.cc and src/BundleHdrParser.cc. *)
From Verif Require Import Base CNum Float FloatText Value Emit Convert Builder ParserInput JSONEmitter GuessFormat GuessScalar Deserialize.
Open Scope N_scope.

(** ** The emitter *)

(** src/BundleHdrEmitter.h:25-34 BHEState_t. *)
Inductive best := BE_START | BE_BEGIN | BE_KEY | BE_VALUE | BE_LIST_START | BE_LIST | BE_END | BE_STOP.

Definition nl : bytes := [bchr 10].

(** src/BundleHdrEmitter.cc:11-12, 34 the line written by BeginDocument. *)
Definition version_line : bytes := s2b "bundle.version: 0.0" ++ nl.

(** src/BundleHdrEmitter.h:72-95 Value: the calls of Write, the new state, and the exception.
    The length is an unsigned. *)
Definition be_value (st : best) (t : bytes) : list bytes * best * option exn :=
  let t := take (wrap32 (llen t)) t in
  match st with
  | BE_KEY => ([t; s2b ": "], BE_VALUE, None)
  | BE_VALUE => ([t; nl], BE_KEY, None)
  | BE_LIST_START => ([t], BE_LIST, None)
  | BE_LIST => ([s2b "|"; t], BE_LIST, None)
  | _ => ([], st, Some RuntimeError)
  end.

(** One emitter call: the calls of Write, the new state, and the exception it ends with. *)
Definition be_calls (prec : N) (st : best) (e : eev) : list bytes * best * option exn :=
  match e with
  | EvBeginDoc => match st with                                            (* BundleHdrEmitter.cc:30-36 *)
                  | BE_START => ([version_line], BE_BEGIN, None)
                  | _ => ([], st, Some RuntimeError)
                  end
  | EvEndDoc => match st with                                              (* 38-44 *)
                | BE_STOP => ([], st, Some RuntimeError)
                | _ => ([], BE_STOP, None)
                end
  | EvBeginMap _ => match st with                                          (* 46-54 *)
                    | BE_START => ([version_line], BE_KEY, None)
                    | BE_BEGIN => ([], BE_KEY, None)
                    | _ => ([], st, Some RuntimeError)
                    end
  | EvEndMap => match st with                                              (* 56-61 *)
                | BE_KEY => ([], BE_END, None)
                | _ => ([], st, Some RuntimeError)
                end
  | EvBeginList _ => match st with                                         (* 63-68 *)
                     | BE_VALUE => ([], BE_LIST_START, None)
                     | _ => ([], st, Some RuntimeError)
                     end
  | EvEndList => match st with                                             (* 70-76 *)
                 | BE_LIST | BE_LIST_START => ([s2b "|" ++ nl], BE_KEY, None)
                 | _ => ([], st, Some RuntimeError)
                 end
  | EvNull => be_value st []                                               (* 79-81 *)
  | EvTrue => be_value st (s2b "1")                                        (* 83-85 *)
  | EvFalse => be_value st (s2b "0")                                       (* 87-89 *)
  | EvStr s => be_value st s                                               (* 91-93 *)
  | EvInt z => be_value st (dec_of_Z z)                                    (* 95-99 *)
  | EvUns n => be_value st (dec_of_N n)                                    (* 101-105 *)
  | EvFlt d => be_value st (print_g (Z.of_N prec) d)                       (* 107-111; the sign of a NaN is not modelled *)
  | EvBlob _ => ([], st, Some RuntimeError)                                (* 113-115 *)
  end.

(** src/BundleHdrEmitter.cc:21 digits10 + 2. *)
Definition be_prec : N := 17.

Section Emitter.
  Context {W : Type} (write : W -> bytes -> wres W).

  (** src/BundleHdrEmitter.h:101-106 Write. *)
  Fixpoint be_writes (fuel : nat) (w : W) (ts : list bytes) : res (W * option exn) :=
    match ts with
    | [] => Ok (w, None)
    | t :: r => do (w, x) <- write_loop write fuel w t 0;
                match x with Some e => Ok (w, Some e) | None => be_writes fuel w r end
    end.

  (** A sequence of emitter calls. *)
  Fixpoint be_run (fuel : nat) (prec : N) (st : best) (w : W) (es : list eev) : res (best * W * option exn) :=
    match es with
    | [] => Ok (st, w, None)
    | e :: t =>
        let '(ts, st', x) := be_calls prec st e in
        do (w, y) <- be_writes fuel w ts;
        match y, x with
        | Some e, _ => Ok (st', w, Some e)
        | None, Some e => Ok (st', w, Some e)
        | None, None => be_run fuel prec st' w t
        end
    end.
End Emitter.

(** ** The parser *)

(** src/BundleHdrParser.h:20-29 State_t. *)
Inductive bhst := BH_START | BH_BEGIN_MAP | BH_KEY | BH_VALUE | BH_LIST | BH_END_MAP | BH_END | BH_STOP.

(** The members (src/BundleHdrParser.h:55-64) that live across calls of Run: the state, the
    vector [value] without the NUL at its end, the pending list entries; and the action stack.
    [h_errno] supplies, for each call of GuessScalar, whether errno was ERANGE before (see
    GuessScalar.guess_scalar); line_num and errorstr are not modelled. *)
Record bh := Bh { h_st : bhst; h_value : bytes; h_list : list bytes; h_b : bstate; h_errno : list bool }.

Definition nonempty {A} (l : list A) : bool := match l with [] => false | _ => true end.
Definition is_bar (c : ascii) : bool := aeqb c "|".

(** The key part: src/BundleHdrParser.cc:51-66.  [None] when a '#' comes first. *)
Fixpoint scan_key (s : bytes) : option (bytes * bytes) :=
  match s with
  | [] => Some ([], [])
  | c :: t =>
      if (aeqb c ":" || aeqb c " " || aeqb c (bchr 9))%bool then Some ([], s)
      else if aeqb c "#" then None
      else match scan_key t with Some (k, r) => Some (c :: k, r) | None => None end
  end.

(** src/BundleHdrParser.cc:41-80 ScanLine on a line (without its newline, which is what *c is
    at the end of the line: a blank, and no colon).  Key and value are given without the NUL
    pushed behind them. *)
Definition scan_line (line : bytes) : option (bytes * bytes) :=
  match line with
  | [] => None
  | _ =>
      match scan_key (skip_space line) with
      | None => None
      | Some (key, r) =>
          match skip_space r with
          | c :: t => if aeqb c ":" then Some (key, fst (span (fun c => negb (aeqb c "#")) (skip_space t))) else None
          | [] => None
          end
      end
  end.

(** src/BundleHdrParser.cc:8, 115. *)
Definition version_key : bytes := s2b "bundle.version".

(** src/BundleHdrParser.cc:119-120 NUL bytes over the blanks at the end of the C string in
    [value] (computing the pointer before the first byte is not treated as an error). *)
Definition trim_value (v : bytes) : bytes :=
  let c := c_str v in
  let t := drop_trailing c in
  t ++ repeat (bchr 0) (List.length c - List.length t) ++ skipn (List.length c) v.

(** src/BundleHdrParser.cc:132 bar_at_end. *)
Definition bar_at_end (v : bytes) : bool := match rev v with c :: _ => is_bar c | [] => false end.

(** The tokens strtok_r finds (src/BundleHdrParser.cc:134): the longest runs without a bar. *)
Fixpoint tokens_of (fuel : nat) (s : bytes) : list bytes :=
  match fuel with
  | O => []
  | S f =>
      let r := snd (span is_bar s) in
      match r with
      | [] => []
      | _ => let '(t, r') := span (fun c => negb (is_bar c)) r in t :: tokens_of f r'
      end
  end.
Definition tokens (s : bytes) : list bytes := tokens_of (S (List.length s)) s.

(** The C string at &value[0] after strtok_r found at most one token: the bar behind that
    token has become a NUL. *)
Definition strtok_rest (s : bytes) : bytes :=
  let '(bars, r) := span is_bar s in bars ++ fst (span (fun c => negb (is_bar c)) r).

(** The action GuessScalar calls (src/GuessScalar.cc:70-116): the value it sets. *)
Definition guess_value (g : guess) : value :=
  match g with
  | GNull => VNull
  | GBool b => VBool b
  | GInt z => VInt z
  | GUns n => VUns n
  | GFlt d => VFlt (ld_of_d d)
  | GText s => VStr s
  end.

Definition next_errno (d : bh) : bool := match h_errno d with e :: _ => e | [] => false end.

Section Parser.
  (** The ParserInput object: GetPtr ([None] is a null pointer, otherwise the bytes
      designated), and Release. *)
  Variable I : Type.
  Variable getptr : I -> N -> res (option bytes * I).
  Variable release : I -> N -> res I.

  (** src/BundleHdrParser.cc:17-34 ReadLine.  [None]: [line] is null. *)
  Fixpoint read_line (fuel : nat) (i : I) (line_len len : N) : res (option bytes * I) :=
    match fuel with
    | O => Fuel
    | S f =>
        do (v, i1) <- getptr i len;
        match v with
        | None => Ok (None, i1)
        | Some b =>
            if line_len =? llen b then Ok (None, i1) else
            let '(s, r) := span (fun c => negb (aeqb c (bchr 10))) (drop line_len b) in
            match r with
            | _ :: _ => Ok (Some (take line_len b ++ s), i1)
            | [] => read_line f i1 (N.max line_len (llen b)) (wrap32 (llen b + 4096))
            end
        end
    end.

  (** src/BundleHdrParser.cc:104-127 the loop of the state KEY: the next key and value. *)
  Fixpoint key_loop (fuel : nat) (i : I) : res (option (bytes * bytes) * I) :=
    match fuel with
    | O => Fuel
    | S f =>
        do (l, i1) <- read_line fuel i 0 0;
        match l with
        | None => Ok (None, i1)
        | Some line =>
            do i2 <- release i1 (wrap32 (llen line + 1));
            match scan_line line with
            | None => key_loop f i2
            | Some (key, v) => if beqb (c_str key) version_key then key_loop f i2 else Ok (Some (c_str key, trim_value v), i2)
            end
        end
    end.

  Definition h_set (d : bh) (st : bhst) (b : bstate) : bh := Bh st (h_value d) (h_list d) b (h_errno d).

  (** src/BundleHdrParser.cc:82-178 Run; the number is the value returned. *)
  Fixpoint bh_run (fuel : nat) (d : bh) (i : I) : res (N * bh * I) :=
    match fuel with
    | O => Fuel
    | S f =>
      match b_acts (h_b d) with
      | [] => Ok (0, d, i)
      | _ =>
        match h_st d with
        | BH_START =>
            do (v, i1) <- getptr i 0;
            match v with
            | None | Some [] => Ok (1, h_set d BH_STOP (h_b d), i1)
            | _ => do b <- build (h_b d) BBeginDoc; bh_run f (h_set d BH_BEGIN_MAP b) i1
            end
        | BH_BEGIN_MAP => do b <- build (h_b d) BBeginMap; bh_run f (h_set d BH_KEY b) i
        | BH_KEY =>
            do (kv, i1) <- key_loop f i;
            match kv with
            | None => bh_run f (h_set d BH_END_MAP (h_b d)) i1
            | Some (k, v) => do b <- build (h_b d) (BScalar (VStr k)); bh_run f (Bh BH_VALUE v (h_list d) b (h_errno d)) i1
            end
        | BH_VALUE =>
            let cs := c_str (h_value d) in
            let ts := tokens cs in
            if ((List.length ts <=? 1)%nat && negb (bar_at_end (h_value d)))%bool then
              do b <- build (h_b d) (BScalar (guess_value (guess_scalar (next_errno d) (strtok_rest cs))));
              bh_run f (Bh BH_KEY (h_value d) [] b (tl (h_errno d))) i
            else
              do b <- build (h_b d) BBeginList;
              bh_run f (Bh BH_LIST [] (h_list d ++ ts) b (h_errno d)) i
        | BH_LIST =>
            match h_list d with
            | v :: t =>
                do b <- build (h_b d) (BScalar (guess_value (guess_scalar (next_errno d) v)));
                bh_run f (Bh BH_LIST (h_value d) t b (tl (h_errno d))) i
            | [] => do b <- build (h_b d) BEndList; bh_run f (h_set d BH_KEY b) i
            end
        | BH_END_MAP => do b <- build (h_b d) BEndMap; bh_run f (h_set d BH_END b) i
        | BH_END => do b <- build (h_b d) BEndDoc; bh_run f (h_set d BH_STOP b) i
        | BH_STOP => Ok (1, d, i)
        end
      end
    end.

  (** src/VariantParsing.cc:212 the loop of ParseVariant. *)
  Fixpoint bh_loop (fuel : nat) (d : bh) (i : I) : res (value * bh * I) :=
    match fuel with
    | O => Fuel
    | S f =>
        do (n, d1, i1) <- bh_run fuel d i;
        if ((n =? 0) && negb (b_done (h_b d1)))%bool then bh_loop f d1 i1
        else Ok (b_result (h_b d1), d1, i1)
    end.

  (** src/BundleHdrParser.cc:190-196 the constructor and src/VariantParsing.cc:208-214 ParseVariant. *)
  Definition bh_new (errno : list bool) : bh := Bh BH_START [] [] b_new errno.
  Definition bh_parse (fuel : nat) (errno : list bool) (i : I) : res (value * bh * I) := bh_loop fuel (bh_new errno) i.
End Parser.

(** GetPtr on a memory or stream input: the bytes the pointer and length designate. *)
Definition in_view_len (i : pinput) (len : N) : res (option bytes * pinput) :=
  do (r, i1) <- in_getptr i len;
  match fst r with
  | None => Ok (None, i1)
  | Some p =>
      let buf := match i1 with InMem m => mi_data m | InStream s => si_buf s end in
      if llen buf <? p + snd r then UB else Ok (Some (take (snd r) (drop p buf)), i1)
  end.

(** src/VariantParsing.cc:220-240 Deserialize / DeserializeFile for SERIALIZE_BUNDLEHDR. *)
Definition parse_bundle (fuel : nat) (errno : list bool) (i : pinput) := bh_parse pinput in_view_len in_release fuel errno i.
