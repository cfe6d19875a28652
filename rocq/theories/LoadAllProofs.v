(** Proofs about LoadAll.v. *)
From Verif Require Import Base CNum Float Value Convert Emit Builder Base64 GuessScalar Bundle ParserInput JSONParserC JSONDriver LoadAll.
Open Scope N_scope.

(** ** Any program of iterators against positions in a list *)

(** What a program should see: each iterator is a position in the list of documents. *)
Definition pos_step (docs : list value) (pool : list nat) (op : iop) : list nat * list iobs :=
  match op with
  | ICopy i => match nth_error pool i with Some k => (pool ++ [k], []) | None => (pool, []) end
  | INext i => match nth_error pool i with
               | Some k => (firstn i pool ++ Nat.min (S k) (List.length docs) :: skipn (S i) pool, [])
               | None => (pool, [])
               end
  | IGet i => match nth_error pool i with
              | Some k => (pool, [OGet (match nth_error docs k with Some v => Ok v | None => Throw OutOfRange end)])
              | None => (pool, [])
              end
  | IEq i j => match nth_error pool i, nth_error pool j with
               | Some a, Some b => (pool, [OEq (Nat.eqb a b)])
               | _, _ => (pool, [])
               end
  end.
Fixpoint pos_run (docs : list value) (pool : list nat) (ops : list iop) : list iobs :=
  match ops with [] => [] | op :: t => let '(pool, o) := pos_step docs pool op in o ++ pos_run docs pool t end.
(** The end iterator made without a parser must not be advanced. *)
Definition no_advance (j : nat) (op : iop) : Prop := op <> INext j /\ op <> ICopy j.

Lemma nth_error_ext {A} (l m : list A) : (forall i, nth_error l i = nth_error m i) -> l = m.
Proof.
  revert m. induction l as [|a l IH]; intros [|b m] H.
  - reflexivity.
  - specialize (H 0%nat). discriminate.
  - specialize (H 0%nat). discriminate.
  - pose proof (H 0%nat) as H0. injection H0 as ->. f_equal. apply IH. intros i. apply (H (S i)).
Qed.
Lemma nth_error_skip {A} (l : list A) : forall n k, nth_error (skipn n l) k = nth_error l (n + k).
Proof. induction l as [|a l IH]; intros [|n] k; cbn [skipn nth_error Nat.add]; auto. destruct k; reflexivity. Qed.

Section Serve.
  Context {P : Type} (done : P -> bool) (parse : P -> res (value * P)).
  (** The parser gives these documents, in order.  It may find out that there are none left
      only by asking, and then gives a null. *)
  Inductive serves : P -> list value -> Prop :=
  | ServesEnd p : done p = true -> serves p []
  | ServesAsk p q : done p = false -> parse p = Ok (VNull, q) -> done q = true -> serves p []
  | ServesDoc p d q r : done p = false -> parse p = Ok (d, q) -> serves q r -> (done q = true -> d <> VNull) -> serves p (d :: r).

  Lemma serves_done p r : serves p r -> done p = true -> r = [].
  Proof. intros H D. inversion H; subst; congruence. Qed.

  Definition chain (docs : list value) (n : nat) : list (value * option nat) :=
    List.map (fun k => (nth k docs VNull, if Nat.ltb (S k) n then Some (S k) else None)) (seq 0 n).
  Lemma chain_nth docs n k : (k < n)%nat -> nth_error (chain docs n) k = Some (nth k docs VNull, if Nat.ltb (S k) n then Some (S k) else None).
  Proof.
    intros H. unfold chain. rewrite nth_error_map.
    assert (E : nth_error (seq 0 n) k = Some k). { rewrite (nth_error_nth' _ 0%nat) by (rewrite seq_length; lia). now rewrite seq_nth by lia. }
    now rewrite E.
  Qed.
  Lemma chain_length docs n : List.length (chain docs n) = n.
  Proof. unfold chain. now rewrite map_length, seq_length. Qed.
  Lemma link_length ns : forall k j, List.length (link ns k j) = List.length ns.
  Proof. induction ns as [|[v o] ns IH]; intros [|k] j; cbn; congruence. Qed.
  Lemma link_nth ns : forall k j i, nth_error (link ns k j) i =
    if Nat.eqb i k then match nth_error ns i with Some (v, _) => Some (v, Some j) | None => None end else nth_error ns i.
  Proof.
    induction ns as [|[v o] ns IH]; intros k j i; cbn [link].
    - destruct (Nat.eqb i k), i; reflexivity.
    - destruct k as [|k], i as [|i]; cbn [nth_error Nat.eqb]; try reflexivity. apply IH.
  Qed.
  Lemma chain_link docs n : (0 < n)%nat ->
    link (chain docs n) (n - 1) n ++ [(nth n docs VNull, None)] = chain docs (S n).
  Proof.
    intros H. apply nth_error_ext. intros i. destruct (Nat.ltb i n) eqn:E.
    - apply Nat.ltb_lt in E. rewrite nth_error_app1 by (rewrite link_length, chain_length; lia). rewrite link_nth, !chain_nth by lia.
      destruct (Nat.eqb i (n - 1)) eqn:B.
      + apply Nat.eqb_eq in B. subst i. replace (S (n - 1)) with n by lia.
        replace (Nat.ltb n (S n)) with true by (symmetry; apply Nat.ltb_lt; lia). reflexivity.
      + apply Nat.eqb_neq in B. destruct (Nat.ltb (S i) n) eqn:C, (Nat.ltb (S i) (S n)) eqn:D; auto;
          rewrite ?Nat.ltb_lt, ?Nat.ltb_ge in *; lia.
    - apply Nat.ltb_ge in E. rewrite nth_error_app2 by (rewrite link_length, chain_length; lia). rewrite link_length, chain_length.
      destruct (Nat.eqb i n) eqn:B.
      + apply Nat.eqb_eq in B. subst i. rewrite Nat.sub_diag, chain_nth by lia. rewrite Nat.ltb_irrefl. reflexivity.
      + apply Nat.eqb_neq in B. replace (nth_error (chain docs (S n)) i) with (@None (value * option nat)) by (symmetry; apply nth_error_None; rewrite chain_length; lia).
        apply nth_error_None. cbn. lia.
  Qed.

  (** The nodes are the documents read so far; an iterator points to its document, or nowhere
      when all have been read and there is none. *)
  Definition shared_ok (docs : list value) (s : shared) : Prop :=
    exists n, (0 < n <= List.length docs)%nat /\ sh_nodes s = chain docs n /\ serves (sh_parser s) (skipn n docs).
  Definition iter_ok (docs : list value) (s : @shared P) (it : iter) (k : nat) : Prop :=
    it_impl it = true /\ match it_at it with
    | Some i => i = k /\ (k < List.length (sh_nodes s))%nat
    | None => k = List.length docs /\ done (sh_parser s) = true
    end.
  (** It is not changed by the others' advancing. *)
  Definition grown (s s' : @shared P) : Prop :=
    (List.length (sh_nodes s) <= List.length (sh_nodes s'))%nat /\ (done (sh_parser s) = true -> s' = s).
  Lemma iter_ok_grown docs s s' it k : grown s s' -> iter_ok docs s it k -> iter_ok docs s' it k.
  Proof.
    intros [G1 G2] [I H]. split; [exact I|]. destruct (it_at it); [split; [apply H|lia]|]. destruct H as [H D]. rewrite (G2 D). auto.
  Qed.

  Lemma next_ok docs s it k : shared_ok docs s -> iter_ok docs s it k -> exists s' it',
    it_next done parse s it = Ok (s', it') /\ shared_ok docs s' /\ iter_ok docs s' it' (Nat.min (S k) (List.length docs)) /\ grown s s'.
  Proof.
    intros (n & N & En & Sv) [Im H]. unfold it_next. destruct it as [im at_]. cbn [it_impl it_at] in *. subst im. destruct at_ as [i|].
    2: { destruct H as [-> D]. rewrite D. eexists _, _. split; [reflexivity|]. split; [exists n; auto|]. split; [|split; auto].
         split; [reflexivity|]. cbn [it_at]. split; [lia|exact D]. }
    destruct H as [-> L]. rewrite En in L |- *. rewrite chain_length in L. rewrite chain_nth by exact L.
    destruct (Nat.ltb (S k) n) eqn:E.
    { apply Nat.ltb_lt in E. eexists _, _. split; [reflexivity|]. split; [exists n; auto|]. split; [|split; auto].
      split; [reflexivity|]. cbn [it_at]. rewrite En, chain_length. lia. }
    apply Nat.ltb_ge in E. assert (K : k = (n - 1)%nat) by lia. subst k. replace (S (n - 1)) with n in * by lia.
    destruct (done (sh_parser s)) eqn:D.
    { pose proof (serves_done _ _ Sv D) as Z. assert (n = List.length docs).
      { assert (List.length (skipn n docs) = 0%nat) by (rewrite Z; reflexivity). rewrite skipn_length in *. lia. }
      eexists _, _. split; [reflexivity|]. split; [exists n; auto|]. split; [|split; auto]. split; [reflexivity|]. cbn [it_at]. split; [lia|exact D]. }
    inversion Sv as [p Hd Hp Hr|p q Hd Hq Hdq Hp Hr|p d q r Hd Hq Hs Hn Hp Hr]; subst; try congruence.
    - rewrite Hq. cbn [rbind]. rewrite Hdq. cbn [andb]. assert (n = List.length docs).
      { assert (List.length (skipn n docs) = 0%nat) by (rewrite <- Hr; reflexivity). rewrite skipn_length in *. lia. }
      eexists _, _. split; [reflexivity|]. split; [exists n; cbn [sh_nodes sh_parser]; rewrite <- Hr; split; [exact N|]; split; [reflexivity|]; constructor; exact Hdq|].
      split; [|split; [cbn [sh_nodes]; rewrite En; lia|congruence]]. split; [reflexivity|]. cbn [it_at sh_parser]. split; [lia|exact Hdq].
    - rewrite Hq. cbn [rbind]. replace (done q && match d with VNull => true | _ => false end)%bool with false.
      2: { destruct (done q); [|reflexivity]. specialize (Hn eq_refl). destruct d; try reflexivity. now contradiction Hn. }
      assert (Hlt : (n < List.length docs)%nat) by (destruct (Nat.lt_ge_cases n (List.length docs)); [assumption|]; rewrite skipn_all2 in Hr by lia; discriminate).
      assert (Ed : d = nth n docs VNull).
      { rewrite <- (firstn_skipn n docs) at 1. rewrite app_nth2 by (rewrite firstn_length; lia). rewrite firstn_length, <- Hr.
        replace (n - Nat.min n (List.length docs))%nat with 0%nat by lia. reflexivity. }
      assert (Er : r = skipn (S n) docs).
      { rewrite <- (firstn_skipn n docs). rewrite skipn_app. rewrite skipn_all2 by (rewrite firstn_length; lia). rewrite firstn_length, <- Hr.
        replace (S n - Nat.min n (List.length docs))%nat with 1%nat by lia. reflexivity. }
      eexists _, _. split; [reflexivity|]. rewrite chain_length. rewrite Ed, chain_link by lia. split.
      + exists (S n). cbn [sh_nodes sh_parser]. rewrite <- Er. split; [lia|]. split; [reflexivity|exact Hs].
      + split; [|split; [cbn [sh_nodes]; rewrite En, !chain_length; lia|congruence]]. split; [reflexivity|]. cbn [it_at sh_nodes]. rewrite chain_length. lia.
  Qed.

  Lemma get_ok docs s it k : shared_ok docs s -> iter_ok docs s it k ->
    it_get s it = match nth_error docs k with Some v => Ok v | None => Throw OutOfRange end.
  Proof.
    intros (n & N & En & _) [_ H]. unfold it_get. destruct (it_at it) as [i|].
    - destruct H as [-> L]. rewrite En in L |- *. rewrite chain_length in L. rewrite chain_nth by exact L.
      rewrite (nth_error_nth' docs VNull) by lia. reflexivity.
    - destruct H as [-> _]. replace (nth_error docs (List.length docs)) with (@None value) by (symmetry; apply nth_error_None; lia). reflexivity.
  Qed.
  Lemma eq_ok docs s a b i j : shared_ok docs s -> iter_ok docs s a i -> iter_ok docs s b j -> it_eq a b = Nat.eqb i j.
  Proof.
    intros (n & N & En & _) [_ A] [_ B]. rewrite En, chain_length in *. unfold it_eq. destruct (it_at a) as [x|], (it_at b) as [y|].
    - destruct A as [-> _], B as [-> _]. reflexivity.
    - destruct A as [-> A], B as [-> _]. symmetry. apply Nat.eqb_neq. lia.
    - destruct A as [-> _], B as [-> B]. symmetry. apply Nat.eqb_neq. lia.
    - destruct A as [-> _], B as [-> _]. symmetry. apply Nat.eqb_refl.
  Qed.

  (** The pool: iterators made from the parser, and the end iterator second. *)
  Definition slot_ok (docs : list value) (s : @shared P) (it : iter) (k : nat) : Prop :=
    iter_ok docs s it k \/ it = it_end /\ k = List.length docs.

  Lemma slot_get docs s it k : shared_ok docs s -> slot_ok docs s it k ->
    it_get s it = match nth_error docs k with Some v => Ok v | None => Throw OutOfRange end.
  Proof.
    intros S [H|[-> ->]]; [apply get_ok; assumption|]. cbn.
    replace (nth_error docs (List.length docs)) with (@None value) by (symmetry; apply nth_error_None; lia). reflexivity.
  Qed.
  Lemma slot_eq docs s a b i j : shared_ok docs s -> slot_ok docs s a i -> slot_ok docs s b j -> it_eq a b = Nat.eqb i j.
  Proof.
    intros S [A|[-> ->]] [B|[-> ->]].
    - eapply eq_ok; eauto.
    - destruct S as (n & N & En & _). destruct A as [_ A]. rewrite En, chain_length in A. unfold it_eq. cbn. destruct (it_at a).
      + destruct A as [-> A]. symmetry. apply Nat.eqb_neq. lia.
      + destruct A as [-> _]. symmetry. apply Nat.eqb_refl.
    - destruct S as (n & N & En & _). destruct B as [_ B]. rewrite En, chain_length in B. unfold it_eq. cbn. destruct (it_at b).
      + destruct B as [-> B]. symmetry. apply Nat.eqb_neq. lia.
      + destruct B as [-> _]. symmetry. apply Nat.eqb_refl.
    - cbn. symmetry. apply Nat.eqb_refl.
  Qed.

  Lemma Forall2_nth {A B} (R : A -> B -> Prop) l m : Forall2 R l m -> forall i,
    match nth_error l i, nth_error m i with Some a, Some b => R a b | None, None => True | _, _ => False end.
  Proof. induction 1; intros [|i]; cbn; auto. apply IHForall2. Qed.
  Lemma Forall2_put {A B} (R : A -> B -> Prop) l m a b : Forall2 R l m -> R a b -> forall i,
    (i < List.length l)%nat -> Forall2 R (firstn i l ++ a :: skipn (S i) l) (firstn i m ++ b :: skipn (S i) m).
  Proof.
    intros H Hab i L. revert i L. induction H; intros [|i] L; cbn in *; try lia; constructor; auto. apply IHForall2. lia.
  Qed.

  Lemma Forall2_imp {A B} (R Q : A -> B -> Prop) l m : (forall a b, R a b -> Q a b) -> Forall2 R l m -> Forall2 Q l m.
  Proof. intros H. induction 1; constructor; auto. Qed.

  Lemma run_ok docs : forall ops s pool poss, shared_ok docs s -> Forall2 (slot_ok docs s) pool poss ->
    nth_error pool 1 = Some it_end -> (forall i it, nth_error pool i = Some it -> i <> 1%nat -> it_impl it = true) ->
    Forall (no_advance 1) ops -> it_run done parse s pool ops = Ok (pos_run docs poss ops).
  Proof.
    induction ops as [|op ops IH]; intros s pool poss S F E1 Ei Fo; [reflexivity|]. inversion Fo as [|? ? [O1 O2] Fo']; subst.
    cbn [it_run pos_run]. destruct op as [i|i|i|i j]; cbn [it_step pos_step].
    - pose proof (Forall2_nth _ _ _ F i) as Hi. destruct (nth_error pool i) as [it|] eqn:Np, (nth_error poss i) as [k|]; try tauto; cbn [rbind app].
      + rewrite (IH s (pool ++ [it]) (poss ++ [k])); try assumption; [reflexivity| | |].
        * apply Forall2_app; [exact F|]. constructor; [exact Hi|constructor].
        * rewrite nth_error_app1; [exact E1|]. apply nth_error_Some. congruence.
        * intros x it0 Hx Nx. destruct (Nat.lt_ge_cases x (List.length pool)).
          -- rewrite nth_error_app1 in Hx by assumption. eauto.
          -- rewrite nth_error_app2 in Hx by assumption. destruct (x - List.length pool)%nat as [|[|?]]; try discriminate. injection Hx as <-. eapply Ei; [exact Np|]. congruence.
      + rewrite (IH s pool poss) by assumption. reflexivity.
    - pose proof (Forall2_nth _ _ _ F i) as Hi. destruct (nth_error pool i) as [it|] eqn:Np, (nth_error poss i) as [k|]; try tauto; cbn [rbind app].
      + assert (Ni : i <> 1%nat) by congruence. assert (Ok1 : iter_ok docs s it k).
        { destruct Hi as [Hi|[-> _]]; [exact Hi|]. specialize (Ei i it_end Np Ni). discriminate. }
        destruct (next_ok docs s it k S Ok1) as (s' & it' & -> & S' & I' & G). cbn [rbind].
        assert (Li : (i < List.length pool)%nat) by (apply nth_error_Some; congruence).
        rewrite (IH s' (firstn i pool ++ it' :: skipn (Datatypes.S i) pool) (firstn i poss ++ Nat.min (Datatypes.S k) (List.length docs) :: skipn (Datatypes.S i) poss)); try assumption; [reflexivity| | |].
        * apply Forall2_put; [|left; exact I'|exact Li]. revert F. apply Forall2_imp. intros a b [H|H]; [left; eapply iter_ok_grown; eauto|right; exact H].
        * destruct i as [|[|i]]; [|congruence|].
          -- destruct pool as [|a pool]; [discriminate|]. exact E1.
          -- destruct pool as [|a [|b pool]]; try discriminate. exact E1.
        * intros x it0 Hx Nx. destruct (Nat.eq_dec x i) as [->|Nxi].
          -- rewrite nth_error_app2 in Hx by (rewrite firstn_length; lia). rewrite firstn_length in Hx. replace (i - Nat.min i (List.length pool))%nat with 0%nat in Hx by lia.
             injection Hx as <-. apply I'.
          -- apply (Ei x it0); [|exact Nx]. rewrite <- (firstn_skipn i pool). destruct (Nat.lt_ge_cases x i).
             ++ rewrite nth_error_app1 in Hx |- * by (rewrite firstn_length; lia). exact Hx.
             ++ rewrite nth_error_app2 in Hx |- * by (rewrite firstn_length; lia). rewrite firstn_length in Hx |- *.
                replace (x - Nat.min i (List.length pool))%nat with (Datatypes.S (x - i - 1)) in Hx |- * by lia. cbn [nth_error] in Hx.
                rewrite nth_error_skip in Hx |- *. replace (i + Datatypes.S (x - i - 1))%nat with (Datatypes.S i + (x - i - 1))%nat by lia. exact Hx.
      + rewrite (IH s pool poss) by assumption. reflexivity.
    - pose proof (Forall2_nth _ _ _ F i) as Hi. destruct (nth_error pool i) as [it|] eqn:Np, (nth_error poss i) as [k|]; try tauto; cbn [rbind app].
      + rewrite (IH s pool poss) by assumption. cbn [rbind app]. rewrite (slot_get docs s it k S Hi). reflexivity.
      + rewrite (IH s pool poss) by assumption. reflexivity.
    - pose proof (Forall2_nth _ _ _ F i) as Hi. pose proof (Forall2_nth _ _ _ F j) as Hj.
      destruct (nth_error pool i) as [a|] eqn:Np, (nth_error poss i) as [k|]; try tauto; destruct (nth_error pool j) as [b|] eqn:Nq, (nth_error poss j) as [l|]; try tauto;
        cbn [rbind app]; rewrite (IH s pool poss) by assumption; try reflexivity. cbn [rbind app]. rewrite (slot_eq docs s a b k l S Hi Hj). reflexivity.
  Qed.
End Serve.
