(** Lemmas about the heap model: what an operation can reach. *)
From Verif Require Import Base Float Value Blob Path Numeric Heap.
Open Scope N_scope.

(** ** Lists *)
Lemma nth_lput {A} (l : list A) i x j :
  nth_error (lput l i x) j = if Nat.eqb j i then match nth_error l i with Some _ => Some x | None => None end
                             else nth_error l j.
Proof.
  revert i j; induction l as [|y l IH]; intros i j; cbn.
  - destruct (Nat.eqb j i); [destruct i|]; destruct j; reflexivity.
  - destruct i as [|i], j as [|j]; cbn; try reflexivity. apply IH.
Qed.

Lemma length_lput {A} (l : list A) i x : List.length (lput l i x) = List.length l.
Proof. revert i; induction l as [|y l IH]; intros [|i]; cbn; auto. Qed.

Lemma In_lput {A} (l : list A) i x y : In y (lput l i x) -> y = x \/ In y l.
Proof.
  revert i; induction l as [|z l IH]; intros [|i]; cbn; auto.
  - intros [H|H]; auto.
  - intros [H|H]; auto. destruct (IH _ H); auto.
Qed.

Lemma In_lresize l n c : In c (lresize l n) -> c = CNull \/ In c l.
Proof.
  unfold lresize. rewrite in_app_iff. intros [H|H].
  - right. rewrite <- (firstn_skipn (N.to_nat n) l). apply in_or_app. auto.
  - left. apply repeat_spec in H. exact H.
Qed.

Lemma length_lresize l n : List.length (lresize l n) = N.to_nat n.
Proof. unfold lresize. rewrite app_length, firstn_length, repeat_length. lia. Qed.

Lemma mset_In {A} k (v : A) m x : In x (mset k v m) -> x = (k, v) \/ In x m.
Proof.
  induction m as [|[k' v'] m IH]; cbn.
  - intros [H|[]]; auto.
  - destruct (bcmp k k'); cbn; intros [H|H]; auto.
    destruct (IH H); auto.
Qed.

Lemma mdel_In {A} k (m : list (bytes * A)) x : In x (mdel k m) -> In x m.
Proof.
  induction m as [|[k' v'] m IH]; cbn; auto.
  destruct (beqb k k'); cbn; auto. intros [H|H]; auto.
Qed.

Lemma removelast_In {A} (l : list A) x : In x (removelast l) -> In x l.
Proof.
  induction l as [|y l IH]; cbn; auto. destruct l; cbn in *; auto. intros [H|H]; auto.
Qed.

(** ** What a cell, a storage, a location refers to *)

Inductive kind := KSStr | KSList | KSMap | KSBlob.
Definition kind_of (x : storage) : kind :=
  match x with StStr _ => KSStr | StList _ => KSList | StMap _ => KSMap | StBlob _ => KSBlob end.
Definition kind_at (st : hstate) (s : nat) (k : kind) : Prop :=
  exists x, nth_error (h_heap st) s = Some x /\ kind_of x = k.

(** The storage a cell holds is in [S], exists and has the right kind. *)
Definition inside (S : nat -> Prop) (st : hstate) (c : cell) : Prop :=
  match c with
  | CStr s => S s /\ kind_at st s KSStr
  | CList s => S s /\ kind_at st s KSList
  | CMap s => S s /\ kind_at st s KSMap
  | CBlob (Some s) => S s /\ kind_at st s KSBlob
  | _ => True
  end.

Definition cells_of (x : storage) : list cell :=
  match x with StList l => l | StMap m => List.map snd m | _ => [] end.
Definition sorted_storage (x : storage) : Prop := match x with StMap m => msorted m | _ => True end.

(** The storages in [S] and the variables in [V] only lead to storages in [S]. *)
Record closed (S V : nat -> Prop) (st : hstate) : Prop := Closed {
  cl_vars : forall x c, V x -> nth_error (h_vars st) x = Some c -> inside S st c;
  cl_heap : forall s x c, S s -> nth_error (h_heap st) s = Some x -> In c (cells_of x) -> inside S st c;
  cl_sort : forall s x, S s -> nth_error (h_heap st) s = Some x -> sorted_storage x;
  cl_bound : forall s, S s -> (s < List.length (h_heap st))%nat
}.

(** From [st] to [st'] only storages in [S] and variables in [V] were modified; new
    storages join [S]. *)
Record evolve (V S : nat -> Prop) (st : hstate) (S' : nat -> Prop) (st' : hstate) : Prop := Evolve {
  ev_len : (List.length (h_heap st) <= List.length (h_heap st'))%nat;
  ev_set : forall s, S' s <-> S s \/ (List.length (h_heap st) <= s < List.length (h_heap st'))%nat;
  ev_closed : closed S' V st';
  ev_vars : forall x, ~ V x -> nth_error (h_vars st') x = nth_error (h_vars st) x;
  ev_nvars : List.length (h_vars st') = List.length (h_vars st);
  ev_heap : forall s, (s < List.length (h_heap st))%nat -> ~ S s -> nth_error (h_heap st') s = nth_error (h_heap st) s;
  ev_kind : forall s k, kind_at st s k -> kind_at st' s k
}.

Lemma inside_mono (S S' : nat -> Prop) st st' c :
  (forall s, S s -> S' s) -> (forall s k, kind_at st s k -> kind_at st' s k) -> inside S st c -> inside S' st' c.
Proof. intros H K. destruct c; cbn; auto; try (intros [A B]; auto). destruct s; [intros [A B]|]; auto. Qed.

Lemma evolve_refl V S st : closed S V st -> evolve V S st S st.
Proof. intros C. split; auto; try (intros s; split; [auto|intros [H|H]; [auto|lia]]). Qed.

Lemma evolve_trans V S st S1 st1 S2 st2 :
  evolve V S st S1 st1 -> evolve V S1 st1 S2 st2 -> evolve V S st S2 st2.
Proof.
  intros A B. pose proof (ev_len _ _ _ _ _ A). pose proof (ev_len _ _ _ _ _ B).
  split.
  - lia.
  - intros s. rewrite (ev_set _ _ _ _ _ B), (ev_set _ _ _ _ _ A). intuition lia.
  - apply (ev_closed _ _ _ _ _ B).
  - intros x N. rewrite (ev_vars _ _ _ _ _ B), (ev_vars _ _ _ _ _ A) by auto. reflexivity.
  - rewrite (ev_nvars _ _ _ _ _ B). apply (ev_nvars _ _ _ _ _ A).
  - intros s L N. rewrite (ev_heap _ _ _ _ _ B), (ev_heap _ _ _ _ _ A); auto. lia.
    rewrite (ev_set _ _ _ _ _ A). intros [X|X]; [auto|lia].
  - intros s k K. apply (ev_kind _ _ _ _ _ B), (ev_kind _ _ _ _ _ A), K.
Qed.

Lemma evolve_inside V S st S' st' c : evolve V S st S' st' -> inside S st c -> inside S' st' c.
Proof.
  intros E. apply inside_mono. intros s H. apply (ev_set _ _ _ _ _ E); auto. apply (ev_kind _ _ _ _ _ E).
Qed.

Definition loc_in (S V : nat -> Prop) (l : loc) : Prop :=
  match l with LVar x => V x | LIdx s _ => S s | LKey s _ => S s end.

Definition allc (l : list cell) : (nat -> Prop) -> hstate -> Prop := fun S st => forall c, In c l -> inside S st c.

(** ** Copy only adds storages, and what it makes lies in what it added *)
Definition between (a b : nat) : nat -> Prop := fun s => (a <= s < b)%nat.
Definition hlen (st : hstate) : nat := List.length (h_heap st).

(** [st'] is [st] with storages added that only lead to added storages. *)
Record grown (st st' : hstate) : Prop := Grown {
  gr_vars : h_vars st' = h_vars st;
  gr_heap : exists new, h_heap st' = h_heap st ++ new;
  gr_new : forall s x c, between (hlen st) (hlen st') s -> nth_error (h_heap st') s = Some x ->
             In c (cells_of x) -> inside (between (hlen st) (hlen st')) st' c;
  gr_sort : forall s x, between (hlen st) (hlen st') s -> nth_error (h_heap st') s = Some x -> sorted_storage x
}.

Lemma grown_refl st : grown st st.
Proof. split; auto; try (intros; unfold between in *; lia). exists []. rewrite app_nil_r. reflexivity. Qed.

Lemma grown_len st st' : grown st st' -> (hlen st <= hlen st')%nat.
Proof. intros G. destruct (gr_heap _ _ G) as [n E]. unfold hlen. rewrite E, app_length. lia. Qed.
Lemma grown_nth st st' s x : grown st st' -> nth_error (h_heap st) s = Some x -> nth_error (h_heap st') s = Some x.
Proof.
  intros G E. destruct (gr_heap _ _ G) as [n E']. rewrite E', nth_error_app1; auto. apply nth_error_Some. congruence.
Qed.
Lemma grown_nth_old st st' s : grown st st' -> (s < hlen st)%nat -> nth_error (h_heap st') s = nth_error (h_heap st) s.
Proof. intros G L. destruct (gr_heap _ _ G) as [n E']. rewrite E', nth_error_app1; auto. Qed.
Lemma grown_kind st st' s k : grown st st' -> kind_at st s k -> kind_at st' s k.
Proof. intros G (x & E & K). exists x. split; auto. eapply grown_nth; eauto. Qed.

Lemma grown_trans a b c : grown a b -> grown b c -> grown a c.
Proof.
  intros A B. pose proof (grown_len _ _ A). pose proof (grown_len _ _ B).
  assert (W : forall x, inside (between (hlen a) (hlen b)) b x -> inside (between (hlen a) (hlen c)) c x).
  { intros x. apply inside_mono. unfold between; intros; lia. intros s k; apply (grown_kind _ _ s k B). }
  assert (W' : forall x, inside (between (hlen b) (hlen c)) c x -> inside (between (hlen a) (hlen c)) c x).
  { intros x. apply inside_mono; auto. unfold between; intros; lia. }
  split.
  - rewrite (gr_vars _ _ B). apply (gr_vars _ _ A).
  - destruct (gr_heap _ _ A) as [m Em], (gr_heap _ _ B) as [n En]. exists (m ++ n). rewrite En, Em, app_assoc. reflexivity.
  - intros s x d Hs E D. destruct (Nat.lt_ge_cases s (hlen b)).
    + rewrite (grown_nth_old _ _ _ B) in E by auto. apply W. eapply (gr_new _ _ A); eauto. unfold between in *; lia.
    + apply W'. eapply (gr_new _ _ B); eauto. unfold between in *; lia.
  - intros s x Hs E. destruct (Nat.lt_ge_cases s (hlen b)).
    + rewrite (grown_nth_old _ _ _ B) in E by auto. eapply (gr_sort _ _ A); eauto. unfold between in *; lia.
    + eapply (gr_sort _ _ B); eauto. unfold between in *; lia.
Qed.

Lemma grown_alloc st st1 x st2 n : grown st st1 -> alloc x st1 = (Ok n, st2) -> sorted_storage x ->
  (forall c, In c (cells_of x) -> inside (between (hlen st) (hlen st1)) st1 c) ->
  grown st st2 /\ n = hlen st1 /\ kind_at st2 n (kind_of x) /\ between (hlen st) (hlen st2) n /\ nth_error (h_heap st2) n = Some x.
Proof.
  intros G E So I. unfold alloc in E. injection E as <- <-. pose proof (grown_len _ _ G).
  assert (L : hlen (with_heap st1 (h_heap st1 ++ [x])) = (hlen st1 + 1)%nat).
  { unfold hlen. cbn. rewrite app_length. reflexivity. }
  assert (NX : nth_error (h_heap st1 ++ [x]) (hlen st1) = Some x).
  { rewrite nth_error_app2, Nat.sub_diag by (unfold hlen; lia). reflexivity. }
  assert (KK : forall t k, kind_at st1 t k -> kind_at (with_heap st1 (h_heap st1 ++ [x])) t k).
  { intros t k (z & Ez & Kz). exists z. split; auto. cbn. rewrite nth_error_app1; auto. apply nth_error_Some. congruence. }
  split; [|split; [reflexivity|split; [|split]]].
  - split; cbn [h_vars h_heap with_heap].
    + apply (gr_vars _ _ G).
    + destruct (gr_heap _ _ G) as [m Em]. exists (m ++ [x]). rewrite Em, app_assoc. reflexivity.
    + intros s y c Hs Ey Ic. rewrite L in Hs |- *.
      apply (inside_mono (between (hlen st) (hlen st1)) _ st1); auto. unfold between; intros; lia.
      destruct (Nat.eq_dec s (hlen st1)) as [->|N].
      * rewrite NX in Ey. injection Ey as <-. auto.
      * rewrite nth_error_app1 in Ey by (unfold between, hlen in *; lia).
        eapply (gr_new _ _ G); eauto. unfold between in *; lia.
    + intros s y Hs Ey. rewrite L in Hs. destruct (Nat.eq_dec s (hlen st1)) as [->|N].
      * rewrite NX in Ey. injection Ey as <-. auto.
      * rewrite nth_error_app1 in Ey by (unfold between, hlen in *; lia).
        eapply (gr_sort _ _ G); eauto. unfold between in *; lia.
  - exists x. auto.
  - rewrite L. unfold between; fold (hlen st1); lia.
  - exact NX.
Qed.

Definition none : nat -> Prop := fun _ => False.
Lemma closed_grown S V st st' : closed S V st -> grown st st' -> closed S V st'.
Proof.
  intros C G. assert (II : forall c, inside S st c -> inside S st' c).
  { intros c. apply inside_mono; auto. intros s k; apply (grown_kind _ _ s k G). }
  split.
  - intros x c Vx E. rewrite (gr_vars _ _ G) in E. apply II, (cl_vars _ _ _ C _ _ Vx E).
  - intros s x c Hs E D. rewrite (grown_nth_old _ _ _ G) in E by (apply (cl_bound _ _ _ C _ Hs)). apply II, (cl_heap _ _ _ C _ _ _ Hs E D).
  - intros s x Hs E. rewrite (grown_nth_old _ _ _ G) in E by (apply (cl_bound _ _ _ C _ Hs)). apply (cl_sort _ _ _ C _ _ Hs E).
  - intros s Hs. pose proof (cl_bound _ _ _ C _ Hs). pose proof (grown_len _ _ G). unfold hlen in *. lia.
Qed.
Lemma inside_grown S st st' c : grown st st' -> inside S st c -> inside S st' c.
Proof. intros G. apply inside_mono; auto. intros s k; apply (grown_kind _ _ s k G). Qed.

Lemma grown_inside st st1 st2 c : grown st st1 -> grown st1 st2 ->
  inside (between (hlen st) (hlen st1)) st1 c -> inside (between (hlen st) (hlen st2)) st2 c.
Proof.
  intros A B. pose proof (grown_len _ _ B). apply inside_mono. unfold between; intros; lia.
  intros s k. apply (grown_kind _ _ s k B).
Qed.

Lemma msorted_snd {A B} (m : list (bytes * A)) (m' : list (bytes * B)) :
  List.map fst m' = List.map fst m -> msorted m -> msorted m'.
Proof.
  revert m'; induction m as [|[k x] m IH]; intros [|[k' x'] m'] E H; try discriminate; cbn in *; auto.
  injection E as -> E. destruct H as [H1 H2]. split; [|auto]. unfold mkeys in *. rewrite E. exact H1.
Qed.

Lemma copy_grown fuel : forall S c st r st', closed S none st -> inside S st c -> copy fuel c st = (r, st') ->
  grown st st' /\ forall c', r = Ok c' -> inside (between (hlen st) (hlen st')) st' c'.
Proof.
  induction fuel as [|f IH]; intros S c st r st' SH SI E; cbn [copy] in E.
  { injection E as <- <-. split; [apply grown_refl|discriminate]. }
  assert (ML : forall l st r st', closed S none st -> allc l S st -> map_m (copy f) l st = (r, st') ->
     grown st st' /\ forall l', r = Ok l' -> forall c', In c' l' -> inside (between (hlen st) (hlen st')) st' c').
  { clear c st r st' SH SI E. induction l as [|x l IHl]; intros st r st' SH SI E; cbn [map_m] in E.
    - injection E as <- <-. split; [apply grown_refl|]. intros l' [= <-] c' [].
    - unfold bind in E. destruct (copy f x st) as [r1 st1] eqn:E1. destruct (IH S _ _ _ _ SH (SI _ (or_introl eq_refl)) E1) as [G1 I1].
      destruct r1 as [y| | | |]; try (injection E as <- <-; split; [exact G1|discriminate]).
      destruct (map_m (copy f) l st1) as [r2 st2] eqn:E2.
      destruct (IHl _ _ _ (closed_grown _ _ _ _ SH G1) (fun c I => inside_grown _ _ _ _ G1 (SI c (or_intror I))) E2) as [G2 I2].
      destruct r2 as [ys| | | |]; injection E as <- <-; (split; [eapply grown_trans; eauto|]); try discriminate.
      intros l' [= <-] c' [<-|D].
      + eapply grown_inside; eauto.
      + eapply inside_mono; [| |apply (I2 _ eq_refl _ D)]; auto. pose proof (grown_len _ _ G1). unfold between; intros; lia. }
  assert (MM : forall (l : list (bytes * cell)) st r st', closed S none st -> allc (List.map snd l) S st ->
     map_m (fun kv => let* x := copy f (snd kv) in ret (fst kv, x)) l st = (r, st') ->
     grown st st' /\ forall l', r = Ok l' -> List.map fst l' = List.map fst l /\
       forall c', In c' (List.map snd l') -> inside (between (hlen st) (hlen st')) st' c').
  { clear c st r st' SH SI E ML. induction l as [|[k x] l IHl]; intros st r st' SH SI E; cbn [map_m] in E.
    - injection E as <- <-. split; [apply grown_refl|]. intros l' [= <-]. split; [reflexivity|]. intros c' [].
    - unfold bind at 1 2 in E. cbn [fst snd] in E.
      destruct (copy f x st) as [r1 st1] eqn:E1. destruct (IH S _ _ _ _ SH (SI _ (or_introl eq_refl)) E1) as [G1 I1].
      destruct r1 as [y| | | |]; try (injection E as <- <-; split; [exact G1|discriminate]).
      cbn [ret] in E. unfold bind in E at 1.
      destruct (map_m (fun kv => let* x := copy f (snd kv) in ret (fst kv, x)) l st1) as [r2 st2] eqn:E2.
      destruct (IHl _ _ _ (closed_grown _ _ _ _ SH G1) (fun c I => inside_grown _ _ _ _ G1 (SI c (or_intror I))) E2) as [G2 I2].
      destruct r2 as [ys| | | |]; injection E as <- <-; (split; [eapply grown_trans; eauto|]); try discriminate.
      intros l' [= <-]. destruct (I2 _ eq_refl) as [K2 J2]. split; [cbn; rewrite K2; reflexivity|].
      cbn. intros c' [<-|D].
      + eapply grown_inside; eauto.
      + eapply inside_mono; [| |apply (J2 _ D)]; auto. pose proof (grown_len _ _ G1). unfold between; intros; lia. }
  destruct c as [|b|z|n|x|s|s|s|[s|]]; try (injection E as <- <-; split; [apply grown_refl|intros c' [= <-]; exact I]).
  - unfold get_str, get_storage, bind, fail in E. destruct (nth_error (h_heap st) s) as [[b|l|m|b]|] eqn:H;
      try (injection E as <- <-; split; [apply grown_refl|discriminate]). cbn [ret] in E.
    destruct (alloc (StStr b) st) as [r1 st1] eqn:A. assert (exists n, r1 = Ok n) as [n ->] by (unfold alloc in A; injection A as <- <-; eauto).
    destruct (grown_alloc st st _ _ _ (grown_refl st) A) as (G & -> & K & B & _); [exact I|intros c []|].
    injection E as <- <-. split; auto. intros c' [= <-]. split; auto.
  - unfold get_list, get_storage, bind at 1 2, fail in E. destruct (nth_error (h_heap st) s) as [[b|l|m|b]|] eqn:H;
      try (injection E as <- <-; split; [apply grown_refl|discriminate]). cbn [ret] in E.
    unfold bind in E. destruct (map_m (copy f) l st) as [r1 st1] eqn:E1. destruct (ML _ _ _ _ SH (fun c => cl_heap _ _ _ SH _ _ c (proj1 SI) H) E1) as [G1 I1].
    destruct r1 as [l'| | | |]; try (injection E as <- <-; split; [exact G1|discriminate]).
    destruct (alloc (StList l') st1) as [r2 st2] eqn:A. assert (exists n, r2 = Ok n) as [n ->] by (unfold alloc in A; injection A as <- <-; eauto).
    destruct (grown_alloc st st1 _ _ _ G1 A) as (G & -> & K & B & _); [exact I|apply (I1 _ eq_refl)|].
    injection E as <- <-. split; auto. intros c' [= <-]. split; auto.
  - unfold get_map, get_storage, bind at 1 2, fail in E. destruct (nth_error (h_heap st) s) as [[b|l|m|b]|] eqn:H;
      try (injection E as <- <-; split; [apply grown_refl|discriminate]). cbn [ret] in E.
    unfold bind at 1 in E.
    destruct (map_m (fun kv => let* x := copy f (snd kv) in ret (fst kv, x)) m st) as [r1 st1] eqn:E1. destruct (MM _ _ _ _ SH (fun c => cl_heap _ _ _ SH _ _ c (proj1 SI) H) E1) as [G1 I1].
    destruct r1 as [l'| | | |]; try (injection E as <- <-; split; [exact G1|discriminate]).
    destruct (I1 _ eq_refl) as [K1 J1]. unfold bind in E.
    destruct (alloc (StMap l') st1) as [r2 st2] eqn:A. assert (exists n, r2 = Ok n) as [n ->] by (unfold alloc in A; injection A as <- <-; eauto).
    destruct (grown_alloc st st1 _ _ _ G1 A) as (G & -> & K & B & _); [|exact J1|].
    { cbn. apply (msorted_snd m); auto. apply (cl_sort _ _ _ SH _ _ (proj1 SI) H). }
    injection E as <- <-. split; auto. intros c' [= <-]. split; auto.
  - unfold get_blob, get_storage, bind at 1 2, fail in E. destruct (nth_error (h_heap st) s) as [[b|l|m|b]|] eqn:H;
      try (injection E as <- <-; split; [apply grown_refl|discriminate]). cbn [ret] in E.
    unfold bind in E. destruct (blob_copy b) as [b'| | | |]; try (injection E as <- <-; split; [apply grown_refl|discriminate]).
    destruct (alloc (StBlob b') st) as [r1 st1] eqn:A. assert (exists n, r1 = Ok n) as [n ->] by (unfold alloc in A; injection A as <- <-; eauto).
    destruct (grown_alloc st st _ _ _ (grown_refl st) A) as (G & -> & K & B & _); [exact I|intros c []|].
    injection E as <- <-. split; auto. intros c' [= <-]. split; auto.
Qed.

(** Growing keeps a side. *)
Lemma grown_evolve V S st st' : closed S V st -> grown st st' ->
  evolve V S st (fun s => S s \/ between (hlen st) (hlen st') s) st'.
Proof.
  intros C G. pose proof (grown_len _ _ G) as L.
  assert (II : forall c, inside S st c -> inside (fun s => S s \/ between (hlen st) (hlen st') s) st' c).
  { intros c. apply inside_mono; auto. intros s k; apply (grown_kind _ _ s k G). }
  split; auto.
  - intros s. reflexivity.
  - split.
    + intros x c Vx E. rewrite (gr_vars _ _ G) in E. apply II, (cl_vars _ _ _ C _ _ Vx E).
    + intros s x c Hs E D. destruct (Nat.lt_ge_cases s (hlen st)).
      * rewrite (grown_nth_old _ _ _ G) in E by auto. destruct Hs as [Hs|Hs]; [|unfold between in Hs; lia].
        apply II, (cl_heap _ _ _ C _ _ _ Hs E D).
      * eapply inside_mono; [| |eapply (gr_new _ _ G); eauto]; auto.
        split; auto. apply nth_error_Some. congruence.
    + intros s x Hs E. destruct (Nat.lt_ge_cases s (hlen st)).
      * rewrite (grown_nth_old _ _ _ G) in E by auto. destruct Hs as [Hs|Hs]; [|unfold between in Hs; lia].
        apply (cl_sort _ _ _ C _ _ Hs E).
      * eapply (gr_sort _ _ G); eauto. split; auto. apply nth_error_Some. congruence.
    + intros s [Hs|Hs]; [pose proof (cl_bound _ _ _ C _ Hs); unfold hlen in L; lia|unfold between, hlen in Hs; lia].
  - intros x _. rewrite (gr_vars _ _ G). reflexivity.
  - rewrite (gr_vars _ _ G). reflexivity.
  - intros s Ls _. apply grown_nth_old; auto.
  - intros s k. apply (grown_kind _ _ s k G).
Qed.

(** ** Computations that stay inside a side *)
Notation pre := ((nat -> Prop) -> hstate -> Prop).

Section Side.
  Variable V : nat -> Prop.

  (** [P] must survive evolution. *)
  Definition stable (P : (nat -> Prop) -> hstate -> Prop) : Prop :=
    forall S st S' st', evolve V S st S' st' -> P S st -> P S' st'.

  Definition conf {A} (P : (nat -> Prop) -> hstate -> Prop) (m : M A)
      (Q : A -> (nat -> Prop) -> hstate -> Prop) : Prop :=
    forall S st r st', closed S V st -> P S st -> m st = (r, st') ->
      exists S', evolve V S st S' st' /\ forall a, r = Ok a -> Q a S' st'.

  Definition T : (nat -> Prop) -> hstate -> Prop := fun _ _ => True.
  Definition okc (c : cell) : (nat -> Prop) -> hstate -> Prop := fun S st => inside S st c.
  Definition okl (l : loc) : (nat -> Prop) -> hstate -> Prop := fun S _ => loc_in S V l.
  Definition oks (s : nat) (k : kind) : (nat -> Prop) -> hstate -> Prop := fun S st => S s /\ kind_at st s k.
  Definition andP (P Q : (nat -> Prop) -> hstate -> Prop) : (nat -> Prop) -> hstate -> Prop :=
    fun S st => P S st /\ Q S st.

  Lemma stable_T : stable T. Proof. intros ? ? ? ? ? ?. exact I. Qed.
  Lemma stable_okc c : stable (okc c).
  Proof. intros S st S' st' E. apply (evolve_inside _ _ _ _ _ c E). Qed.
  Lemma stable_okl l : stable (okl l).
  Proof. intros S st S' st' E. unfold okl. destruct l; cbn; auto; intros H; apply (ev_set _ _ _ _ _ E); auto. Qed.
  Lemma stable_oks s k : stable (oks s k).
  Proof. intros S st S' st' E [A B]. split. apply (ev_set _ _ _ _ _ E); auto. apply (ev_kind _ _ _ _ _ E), B. Qed.
  Lemma stable_and P Q : stable P -> stable Q -> stable (andP P Q).
  Proof. intros A B S st S' st' E [X Y]. split; [apply (A _ _ _ _ E X)|apply (B _ _ _ _ E Y)]. Qed.
  Lemma stable_allc l : stable (allc l).
  Proof. intros S st S' st' E H c I. apply (evolve_inside _ _ _ _ _ c E), H, I. Qed.

  (** The precondition may be kept as a frame. *)
  Lemma conf_bind {A B} (P : pre) (m : M A) Q (f : A -> M B) R :
    stable P -> conf P m Q -> (forall a, conf (andP P (Q a)) (f a) R) -> conf P (bind m f) R.
  Proof.
    intros SP Hm Hf S st r st' C HP E. unfold bind in E.
    destruct (m st) as [r1 st1] eqn:E1.
    destruct (Hm S st r1 st1 C HP E1) as (S1 & Ev & HQ).
    destruct r1 as [a| | | |]; try (injection E as <- <-; exists S1; split; [exact Ev|discriminate]).
    destruct (Hf a S1 st1 r st' (ev_closed _ _ _ _ _ Ev)) as (S2 & Ev2 & HR); auto.
    { split; [apply (SP _ _ _ _ Ev HP)|auto]. }
    exists S2. split; [eapply evolve_trans; eauto|auto].
  Qed.

  Lemma conf_weaken {A} (P P' : _ -> _ -> Prop) (m : M A) (Q Q' : A -> _ -> _ -> Prop) :
    conf P m Q -> (forall S st, P' S st -> P S st) -> (forall a S st, Q a S st -> Q' a S st) -> conf P' m Q'.
  Proof.
    intros H HP HQ S st r st' C HP' E. destruct (H S st r st' C (HP _ _ HP') E) as (S' & Ev & HR).
    exists S'. split; auto.
  Qed.

  Lemma conf_ret {A} (P : _ -> _ -> Prop) (a : A) (Q : A -> _ -> _ -> Prop) :
    (forall S st, P S st -> Q a S st) -> conf P (ret a) Q.
  Proof.
    intros H S st r st' C HP E. injection E as <- <-. exists S. split; [apply evolve_refl; auto|].
    intros b [= <-]. auto.
  Qed.

  Lemma conf_fail {A} (P : pre) (r : res A) (Q : A -> _ -> _ -> Prop) :
    (forall a S st, r = Ok a -> P S st -> Q a S st) -> conf P (fail r) Q.
  Proof.
    intros H S st r' st' C HP E. injection E as <- <-. exists S. split; [apply evolve_refl; auto|].
    intros a ->. eauto.
  Qed.

  Lemma conf_throw {A} (P : pre) e (Q : A -> _ -> _ -> Prop) : conf P (throw e) Q.
  Proof. apply conf_fail. discriminate. Qed.

  (** *** Primitives *)
  Lemma peek_inside S st l c : closed S V st -> loc_in S V l -> peek st l = Some c -> inside S st c.
  Proof.
    intros C L E. destruct l as [x|s i|s k]; cbn in *.
    - apply (cl_vars _ _ _ C _ _ L E).
    - destruct (nth_error (h_heap st) s) as [[b|cs|m|b]|] eqn:H; try discriminate.
      apply (cl_heap _ _ _ C _ _ _ L H). cbn. unfold nthN in E. apply (nth_error_In _ _ E).
    - destruct (nth_error (h_heap st) s) as [[b|cs|m|b]|] eqn:H; try discriminate.
      apply (cl_heap _ _ _ C _ _ _ L H). cbn. apply mget_In in E. apply (in_map snd) in E. exact E.
  Qed.

  Lemma conf_load (P : pre) l : (forall S st, P S st -> okl l S st) -> conf P (load l) (fun c => okc c).
  Proof.
    intros L S st r st' C HP E. unfold load in E.
    destruct (peek st l) as [c|] eqn:K; injection E as <- <-; (exists S; split; [apply evolve_refl; auto|]); [|discriminate].
    intros a [= <-]. apply (peek_inside S st l); auto. apply (L _ _ HP).
  Qed.

  (** Replacing a storage of the side by one of the same kind whose cells are inside. *)
  Lemma evolve_put S st s x y :
    closed S V st -> S s -> nth_error (h_heap st) s = Some x -> kind_of y = kind_of x -> sorted_storage y ->
    (forall c, In c (cells_of y) -> inside S st c) ->
    evolve V S st S (with_heap st (lput (h_heap st) s y)).
  Proof.
    intros C L E K So I.
    assert (KK : forall t k, kind_at st t k -> kind_at (with_heap st (lput (h_heap st) s y)) t k).
    { intros t k (z & Ez & Kz). unfold kind_at. cbn. rewrite nth_lput.
      destruct (Nat.eqb_spec t s) as [->|N]; [|eauto].
      rewrite E in Ez |- *. injection Ez as <-. exists y. rewrite K. auto. }
    assert (II : forall c, inside S st c -> inside S (with_heap st (lput (h_heap st) s y)) c).
    { intros c. apply inside_mono; auto. }
    split; cbn; rewrite ?length_lput; auto.
    - intros t. split; [auto|intros [H|H]; [auto|lia]].
    - split; cbn.
      + intros x0 c Vx Ex. apply II, (cl_vars _ _ _ C _ _ Vx Ex).
      + intros t z c St Ez Ic. rewrite nth_lput in Ez. apply II.
        destruct (Nat.eqb_spec t s) as [->|N].
        * rewrite E in Ez. injection Ez as <-. auto.
        * apply (cl_heap _ _ _ C _ _ _ St Ez Ic).
      + intros t z St Ez. rewrite nth_lput in Ez. destruct (Nat.eqb_spec t s) as [->|N].
        * rewrite E in Ez. injection Ez as <-. auto.
        * apply (cl_sort _ _ _ C _ _ St Ez).
      + rewrite length_lput. apply (cl_bound _ _ _ C).
    - intros t Lt Nt. rewrite nth_lput. destruct (Nat.eqb_spec t s) as [->|N]; [contradiction|reflexivity].
  Qed.

  Lemma conf_store (P : pre) l c : (forall S st, P S st -> okl l S st /\ okc c S st) -> conf P (store l c) (fun _ => T).
  Proof.
    intros H S st r st' C HP E. destruct (H _ _ HP) as [L I]. unfold store in E.
    destruct (peek st l) as [c0|] eqn:K; [|injection E as <- <-; exists S; split; [apply evolve_refl; auto|discriminate]].
    injection E as <- <-. exists S. split; [|intros; exact Logic.I].
    destruct l as [x|s i|s k]; cbn in *.
    - split; cbn; auto.
      + intros s. split; [auto|intros [X|X]; [auto|lia]].
      + split; cbn.
        * intros y d Vy Ey. rewrite nth_lput in Ey. destruct (Nat.eqb_spec y x) as [->|N].
          { rewrite K in Ey. injection Ey as <-. exact I. }
          { apply (cl_vars _ _ _ C _ _ Vy Ey). }
        * apply (cl_heap _ _ _ C).
        * apply (cl_sort _ _ _ C).
        * apply (cl_bound _ _ _ C).
      + intros y N. rewrite nth_lput. destruct (Nat.eqb_spec y x) as [->|]; [contradiction|reflexivity].
      + apply length_lput.
    - destruct (nth_error (h_heap st) s) as [[b|cs|m|b]|] eqn:G; try discriminate.
      eapply evolve_put; eauto. exact Logic.I.
      cbn. intros d D. apply In_lput in D. destruct D as [->|D]; auto.
      apply (cl_heap _ _ _ C _ _ _ L G D).
    - destruct (nth_error (h_heap st) s) as [[b|cs|m|b]|] eqn:G; try discriminate.
      eapply evolve_put; eauto.
      + apply msorted_mset. apply (cl_sort _ _ _ C _ _ L G).
      + cbn. intros d D. apply in_map_iff in D. destruct D as ([k' d'] & <- & D). cbn.
        apply mset_In in D. destruct D as [[= -> ->]|D]; auto.
        apply (cl_heap _ _ _ C _ _ _ L G). cbn. apply (in_map snd) in D. exact D.
  Qed.

  Lemma conf_alloc (P : pre) x :
    (forall S st, P S st -> sorted_storage x /\ forall c, In c (cells_of x) -> inside S st c) ->
    conf P (alloc x) (fun s => oks s (kind_of x)).
  Proof.
    intros H S st r st' C HP E. destruct (H _ _ HP) as [So I]. unfold alloc in E. injection E as <- <-.
    set (n := List.length (h_heap st)).
    assert (KK : forall t k, kind_at st t k -> kind_at (with_heap st (h_heap st ++ [x])) t k).
    { intros t k (z & Ez & Kz). exists z. split; auto. cbn. rewrite nth_error_app1; auto.
      apply nth_error_Some. congruence. }
    exists (fun s => S s \/ s = n). split.
    - assert (II : forall c, inside S st c -> inside (fun s => S s \/ s = n) (with_heap st (h_heap st ++ [x])) c).
      { intros c. apply inside_mono; auto. }
      split; cbn; rewrite ?app_length; cbn; auto; try lia.
      + intros s. fold n. split; intros [?|?]; subst; auto; right; lia.
      + split; cbn.
        * intros y c Vy Ey. apply II, (cl_vars _ _ _ C _ _ Vy Ey).
        * intros s z c Ss Ez Ic. apply II. destruct (Nat.eq_dec s n) as [->|N].
          { unfold n in Ez. rewrite nth_error_app2, Nat.sub_diag in Ez by lia. cbn in Ez. injection Ez as <-. auto. }
          { destruct Ss as [Ss|Ss]; [|contradiction]. rewrite nth_error_app1 in Ez.
            apply (cl_heap _ _ _ C _ _ _ Ss Ez Ic).
            assert (s < List.length (h_heap st ++ [x]))%nat by (apply nth_error_Some; congruence).
            rewrite app_length in H0. cbn in H0. fold n in H0 |- *. lia. }
        * intros s z Ss Ez. destruct (Nat.eq_dec s n) as [->|N].
          { unfold n in Ez. rewrite nth_error_app2, Nat.sub_diag in Ez by lia. cbn in Ez. injection Ez as <-. auto. }
          { destruct Ss as [Ss|Ss]; [|contradiction]. rewrite nth_error_app1 in Ez.
            apply (cl_sort _ _ _ C _ _ Ss Ez).
            assert (s < List.length (h_heap st ++ [x]))%nat by (apply nth_error_Some; congruence).
            rewrite app_length in H0. cbn in H0. fold n in H0 |- *. lia. }
        * rewrite app_length. cbn. intros s [Hs|Hs]; [pose proof (cl_bound _ _ _ C _ Hs)|subst s n]; lia.
      + intros s Ls Ns. rewrite nth_error_app1 by auto. reflexivity.
    - intros a [= <-]. split; [auto|]. exists x. split; auto. cbn. unfold n.
      rewrite nth_error_app2, Nat.sub_diag by lia. reflexivity.
  Qed.

  (** Reading a storage of the side. *)
  Lemma conf_get_storage (P : pre) s k : (forall S st, P S st -> oks s k S st) ->
    conf P (get_storage s) (fun x S st => kind_of x = k /\ sorted_storage x /\ forall c, In c (cells_of x) -> inside S st c).
  Proof.
    intros H S st r st' C HP E. destruct (H _ _ HP) as [Ss (y & Ey & Ky)]. unfold get_storage in E.
    rewrite Ey in E. injection E as <- <-. exists S. split; [apply evolve_refl; auto|].
    intros a [= <-]. split; auto. split. apply (cl_sort _ _ _ C _ _ Ss Ey).
    intros c Ic. apply (cl_heap _ _ _ C _ _ _ Ss Ey Ic).
  Qed.

  Lemma conf_put_storage (P : pre) s x :
    (forall S st, P S st -> oks s (kind_of x) S st /\ sorted_storage x /\ forall c, In c (cells_of x) -> inside S st c) ->
    conf P (put_storage s x) (fun _ => T).
  Proof.
    intros H S st r st' C HP E. destruct (H _ _ HP) as [[Ss (y & Ey & Ky)] [So I]]. unfold put_storage in E.
    rewrite Ey in E. injection E as <- <-. exists S. split; [|intros; exact Logic.I].
    eapply evolve_put; eauto.
  Qed.

  (** *** Stability *)
  Definition pureP (X : Prop) : pre := fun _ _ => X.
  Lemma stable_pure X : stable (pureP X).
  Proof. intros ? ? ? ? ? H. exact H. Qed.
  Definition okv (r : vref) : pre := match r with RRef l => okl l | RProxy l _ => okl l end.
  Lemma stable_okv r : stable (okv r).
  Proof. destruct r; apply stable_okl. Qed.
  Definition okol (o : option loc) : pre := match o with Some l => okl l | None => T end.
  Lemma stable_okol o : stable (okol o).
  Proof. destruct o; [apply stable_okl|apply stable_T]. Qed.
  Definition okoc (o : option cell) : pre := match o with Some l => okc l | None => T end.
  Lemma stable_okoc o : stable (okoc o).
  Proof. destruct o; [apply stable_okc|apply stable_T]. Qed.
  Definition okm (m : list (bytes * cell)) : pre := andP (pureP (msorted m)) (allc (List.map snd m)).
  Lemma stable_okm m : stable (okm m).
  Proof. apply stable_and; [apply stable_pure|apply stable_allc]. Qed.

  Ltac stab := cbv beta; repeat match goal with |- stable (andP _ _) => apply stable_and end;
    lazymatch goal with
    | |- stable T => apply stable_T
    | |- stable (okc _) => apply stable_okc
    | |- stable (okl _) => apply stable_okl
    | |- stable (oks _ _) => apply stable_oks
    | |- stable (allc _) => apply stable_allc
    | |- stable (pureP _) => apply stable_pure
    | |- stable (okv _) => apply stable_okv
    | |- stable (okol _) => apply stable_okol
    | |- stable (okoc _) => apply stable_okoc
    | |- stable (okm _) => apply stable_okm
    | |- stable _ => assumption
    end.
  (* side conditions *)
  Ltac cb :=
    repeat match goal with H : andP _ _ _ _ |- _ => destruct H end;
    repeat match goal with H : forall S st, ?P S st -> _, HP : ?P _ _ |- _ => specialize (H _ _ HP) end;
    unfold andP, okm, okl, okc, oks, okv, okol, okoc, allc, pureP, T in *; cbn in *; intuition (eauto with nocore).

  Lemma conf_get_list (P : pre) s : (forall S st, P S st -> oks s KSList S st) -> stable P ->
    conf P (get_list s) (fun l => allc l).
  Proof.
    intros H SP S st r st' C HP E. unfold get_list, bind in E.
    destruct (get_storage s st) as [r1 st1] eqn:E1.
    destruct (conf_get_storage P s KSList H S st r1 st1 C HP E1) as (S1 & Ev & Q).
    exists S1. destruct r1 as [x| | | |]; try (injection E as <- <-; split; [exact Ev|discriminate]).
    destruct (Q x eq_refl) as (K & So & I).
    destruct x; try discriminate. injection E as <- <-. split; [exact Ev|]. intros a [= <-]. exact I.
  Qed.

  Lemma conf_get_map (P : pre) s : (forall S st, P S st -> oks s KSMap S st) -> stable P ->
    conf P (get_map s) (fun l => okm l).
  Proof.
    intros H SP S st r st' C HP E. unfold get_map, bind in E.
    destruct (get_storage s st) as [r1 st1] eqn:E1.
    destruct (conf_get_storage P s KSMap H S st r1 st1 C HP E1) as (S1 & Ev & Q).
    exists S1. destruct r1 as [x| | | |]; try (injection E as <- <-; split; [exact Ev|discriminate]).
    destruct (Q x eq_refl) as (K & So & I).
    destruct x; try discriminate. injection E as <- <-. split; [exact Ev|]. intros a [= <-]. split; [exact So|exact I].
  Qed.

  (** Reading only: the state does not change. *)
  Definition pure_m {A} (m : M A) : Prop := forall st, snd (m st) = st.
  Lemma conf_pure {A} (P : pre) (m : M A) : pure_m m -> conf P m (fun _ => T).
  Proof.
    intros H S st r st' C HP E. specialize (H st). rewrite E in H. cbn in H. subst st'.
    exists S. split; [apply evolve_refl; auto|]. intros; exact Logic.I.
  Qed.

  (** *** The functions of the model *)
  Ltac side := try solve [stab]; try (intros; cb; fail).
  Ltac fin := intros; cb.
  Tactic Notation "step" constr(lem) ident(x) := eapply conf_bind; [stab | apply lem; side | intros x].
  Ltac leaf := first [apply conf_throw | apply conf_ret; fin | apply conf_fail; fin; try discriminate].

  Lemma conf_assign (P : pre) c l : stable P -> (forall S st, P S st -> okl l S st /\ okc c S st) ->
    conf P (assign c l) (fun _ => T).
  Proof. intros. apply conf_store; auto. Qed.

  Lemma conf_get_index (P : pre) l i ch : stable P -> (forall S st, P S st -> okl l S st) ->
    conf P (get_index l i ch) (fun o => okol o).
  Proof.
    intros SP H. unfold get_index. step conf_load a.
    destruct a; try (destruct ch; leaf).
    step conf_get_list cs. destruct (i <? lsize cs); [leaf|destruct ch; leaf].
  Qed.

  Lemma conf_get_key (P : pre) l k ch : stable P -> (forall S st, P S st -> okl l S st) ->
    conf P (get_key l k ch) (fun o => okol o).
  Proof.
    intros SP H. unfold get_key. step conf_load a.
    destruct a; try (destruct ch; leaf).
    step conf_get_map cs. destruct (mget k cs); [leaf|destruct ch; leaf].
  Qed.

  Lemma conf_list_at (P : pre) s i : stable P -> (forall S st, P S st -> oks s KSList S st) ->
    conf P (list_at s i) (fun l => okl l).
  Proof. intros SP H. unfold list_at. step conf_get_list cs. destruct (i <? lsize cs); leaf. Qed.

  Lemma resize_ok S st cs n : allc cs S st -> forall c, In c (lresize cs n) -> inside S st c.
  Proof. intros H c D. apply In_lresize in D. destruct D as [->|D]; [exact Logic.I|apply H, D]. Qed.

  Lemma conf_put_list (P : pre) s l : (forall S st, P S st -> oks s KSList S st /\ allc l S st) ->
    conf P (put_storage s (StList l)) (fun _ => T).
  Proof. intros H. apply conf_put_storage. intros S st HP. destruct (H _ _ HP). cbn. repeat split; auto; apply H0. Qed.

  Lemma conf_put_map (P : pre) s l : (forall S st, P S st -> oks s KSMap S st /\ okm l S st) ->
    conf P (put_storage s (StMap l)) (fun _ => T).
  Proof. intros H. apply conf_put_storage. intros S st HP. destruct (H _ _ HP) as [? [? ?]]. cbn. auto. Qed.

  Lemma conf_list_set_index (P : pre) s i c : stable P -> (forall S st, P S st -> oks s KSList S st /\ okc c S st) ->
    conf P (list_set_index s i c) (fun _ => T).
  Proof.
    intros SP H. unfold list_set_index. step conf_get_list a.
    eapply conf_bind; [stab| |intros u].
    - instantiate (1 := fun _ => T). destruct (i <? lsize a); [apply conf_ret; intros; exact Logic.I|].
      apply conf_put_list. intros S st [HP HA]. destruct (H _ _ HP). split; auto. intros d. apply resize_ok, HA.
    - step conf_list_at e. apply conf_assign; [stab|fin].
  Qed.

  Lemma conf_alloc_list (P : pre) : stable P -> conf P (alloc (StList [])) (fun s => oks s KSList).
  Proof. intros SP. apply conf_alloc. cbn. intros. split; [exact Logic.I|intros ? []]. Qed.
  Lemma conf_alloc_map (P : pre) : stable P -> conf P (alloc (StMap [])) (fun s => oks s KSMap).
  Proof. intros SP. apply conf_alloc. cbn. intros. split; [exact Logic.I|intros ? []]. Qed.

  Lemma conf_set_index (P : pre) l i c : stable P -> (forall S st, P S st -> okl l S st /\ okc c S st) ->
    conf P (set_index l i c) (fun _ => T).
  Proof.
    intros SP H. unfold set_index. step conf_load c0. destruct c0; try leaf.
    - step conf_alloc_list s. step conf_store u. apply conf_list_set_index; [stab|fin].
    - apply conf_list_set_index; [stab|fin].
  Qed.

  Lemma conf_as_list (P : pre) l : stable P -> (forall S st, P S st -> okl l S st) ->
    conf P (as_list l) (fun s => oks s KSList).
  Proof.
    intros SP H. unfold as_list. step conf_load c0. destruct c0; try leaf.
    step conf_alloc_list s. step conf_store u. leaf.
  Qed.

  Lemma conf_append (P : pre) l c : stable P -> (forall S st, P S st -> okl l S st /\ okc c S st) ->
    conf P (append l c) (fun _ => T).
  Proof.
    intros SP H. unfold append. step conf_as_list s. step conf_get_list cs.
    apply conf_put_list. intros S st [[HP HA] HB]. split; auto. intros d D. apply in_app_iff in D.
    destruct D as [D|[<-|[]]]; [apply HB, D|apply H, HP].
  Qed.

  Lemma conf_erase_index (P : pre) l i : stable P -> (forall S st, P S st -> okl l S st) ->
    conf P (erase_index l i) (fun _ => T).
  Proof.
    intros SP H. unfold erase_index. step conf_load c0. destruct c0; try leaf.
    step conf_get_list cs. destruct (_ <? _); [|destruct (_ <? _)].
    - step conf_list_at e. apply conf_assign; [stab|fin].
    - apply conf_put_list. intros S st [[HP HA] HB]. split; auto. intros d D. apply removelast_In in D. apply HB, D.
    - leaf.
  Qed.

  Lemma okm_mset S st k c m : okm m S st -> okc c S st -> okm (mset k c m) S st.
  Proof.
    intros [A B] C. split; [apply msorted_mset, A|]. intros d D. apply in_map_iff in D.
    destruct D as ([k' d'] & <- & D). cbn. apply mset_In in D. destruct D as [[= -> ->]|D]; auto.
    apply B. apply (in_map snd) in D. exact D.
  Qed.
  Lemma okm_mdel S st k m : okm m S st -> okm (mdel k m) S st.
  Proof.
    intros [A B]. split; [apply msorted_mdel, A|]. intros d D. apply in_map_iff in D.
    destruct D as ([k' d'] & <- & D). cbn. apply mdel_In in D. apply B. apply (in_map snd) in D. exact D.
  Qed.

  Lemma conf_map_insert (P : pre) s k c : stable P -> (forall S st, P S st -> oks s KSMap S st /\ okc c S st) ->
    conf P (map_insert s k c) (fun _ => T).
  Proof.
    intros SP H. unfold map_insert. step conf_get_map m. destruct (mget k m); [leaf|].
    apply conf_put_map. intros S st [HP HA]. destruct (H _ _ HP). split; auto. apply okm_mset; auto.
  Qed.

  Lemma conf_map_set_key (P : pre) s k c : stable P -> (forall S st, P S st -> oks s KSMap S st /\ okc c S st) ->
    conf P (map_set_key s k c) (fun _ => T).
  Proof. intros SP H. unfold map_set_key. step conf_map_insert u. apply conf_assign; [stab|fin]. Qed.

  Lemma conf_set_key (P : pre) l k c : stable P -> (forall S st, P S st -> okl l S st /\ okc c S st) ->
    conf P (set_key l k c) (fun _ => T).
  Proof.
    intros SP H. unfold set_key. step conf_load c0. destruct c0; try leaf.
    - step conf_alloc_map s. step conf_store u. apply conf_map_set_key; [stab|fin].
    - apply conf_map_set_key; [stab|fin].
  Qed.

  Lemma conf_as_map (P : pre) l : stable P -> (forall S st, P S st -> okl l S st) ->
    conf P (as_map l) (fun s => oks s KSMap).
  Proof.
    intros SP H. unfold as_map. step conf_load c0. destruct c0; try leaf.
    step conf_alloc_map s. step conf_store u. leaf.
  Qed.

  Lemma conf_erase_key (P : pre) l k : stable P -> (forall S st, P S st -> okl l S st) ->
    conf P (erase_key l k) (fun _ => T).
  Proof.
    intros SP H. unfold erase_key. step conf_load c0. destruct c0; try leaf.
    step conf_get_map m. apply conf_put_map. intros S st [[HP HA] HB]. split; auto. apply okm_mdel, HB.
  Qed.

  Lemma conf_get_elem (P : pre) l e ch : stable P -> (forall S st, P S st -> okl l S st) ->
    conf P (get_elem l e ch) (fun o => okol o).
  Proof. intros. destruct e; [apply conf_get_key|apply conf_get_index]; auto. Qed.
  Lemma conf_set_elem (P : pre) l e c : stable P -> (forall S st, P S st -> okl l S st /\ okc c S st) ->
    conf P (set_elem l e c) (fun _ => T).
  Proof. intros. destruct e; [apply conf_set_key|apply conf_set_index]; auto. Qed.
  Lemma conf_erase_elem (P : pre) l e : stable P -> (forall S st, P S st -> okl l S st) ->
    conf P (erase_elem l e) (fun _ => T).
  Proof. intros. destruct e; [apply conf_erase_key|apply conf_erase_index]; auto. Qed.

  Lemma conf_list_get_ref (P : pre) l s i d : stable P ->
    (forall S st, P S st -> okl l S st /\ oks s KSList S st /\ okoc d S st) ->
    conf P (list_get_ref l s i d) (fun r => okv r).
  Proof.
    intros SP H. unfold list_get_ref. step conf_get_list cs. destruct (i <? lsize cs); [leaf|].
    destruct d as [d|]; [|leaf].
    eapply conf_bind; [stab| |intros u].
    - apply conf_put_list. intros S st [HP HA]. destruct (H _ _ HP) as (? & ? & ?). split; auto. intros x. apply resize_ok, HA.
    - step conf_list_at e. step conf_assign u2. leaf.
  Qed.

  Lemma conf_get_ref_index (P : pre) l i d : stable P ->
    (forall S st, P S st -> okl l S st /\ okoc d S st) -> conf P (get_ref_index l i d) (fun r => okv r).
  Proof.
    intros SP H. unfold get_ref_index. step conf_load c0. destruct c0; try leaf.
    - destruct d as [d|]; [|leaf]. step conf_alloc_list s. step conf_store u. apply conf_list_get_ref; [stab|fin].
    - apply conf_list_get_ref; [stab|]. intros S st [HP HA]. destruct (H _ _ HP). auto.
  Qed.

  Lemma conf_map_get_ref (P : pre) l s k d : stable P ->
    (forall S st, P S st -> okl l S st /\ oks s KSMap S st /\ okoc d S st) ->
    conf P (map_get_ref l s k d) (fun r => okv r).
  Proof.
    intros SP H. unfold map_get_ref. step conf_get_map m. destruct (mget k m); [leaf|].
    destruct d as [d|]; [|leaf]. step conf_map_insert u. leaf.
  Qed.

  Lemma conf_get_ref_key (P : pre) l k d : stable P ->
    (forall S st, P S st -> okl l S st /\ okoc d S st) -> conf P (get_ref_key l k d) (fun r => okv r).
  Proof.
    intros SP H. unfold get_ref_key. step conf_load c0. destruct c0; try leaf.
    - destruct d as [d|]; [|leaf]. step conf_alloc_map s. step conf_store u. apply conf_map_get_ref; [stab|fin].
    - apply conf_map_get_ref; [stab|]. intros S st [HP HA]. destruct (H _ _ HP). auto.
  Qed.

  Lemma conf_get_ref_elem (P : pre) l e d : stable P ->
    (forall S st, P S st -> okl l S st /\ okoc d S st) -> conf P (get_ref_elem l e d) (fun r => okv r).
  Proof. intros. destruct e; [apply conf_get_ref_key|apply conf_get_ref_index]; auto. Qed.

  Lemma conf_get_path_ref p (P : pre) l d : stable P ->
    (forall S st, P S st -> okl l S st /\ okoc d S st) -> conf P (get_path_ref p l d) (fun r => okv r).
  Proof.
    revert P l; induction p as [|e p IH]; intros P l SP H; cbn [get_path_ref].
    - leaf.
    - step conf_get_elem o. destruct o as [l'|].
      + destruct p as [|e' p']; [leaf|]. apply IH; [stab|fin].
      + destruct d as [d|]; [|leaf].
        destruct p as [|e' p']; [apply conf_get_ref_elem; [stab|fin]|].
        step conf_set_elem u. step conf_get_elem o2. destruct o2 as [l'|]; [|leaf].
        apply IH; [stab|fin].
  Qed.

  Lemma conf_get_path p (P : pre) l ch : stable P ->
    (forall S st, P S st -> okl l S st) -> conf P (get_path p l ch) (fun r => okol r).
  Proof.
    revert P l; induction p as [|e p IH]; intros P l SP H; cbn [get_path].
    - step conf_load c. leaf.
    - step conf_get_elem o. destruct o as [l'|].
      + destruct p as [|e' p']; [leaf|]. apply IH; [stab|fin].
      + destruct ch; [destruct e|]; leaf.
  Qed.

  Lemma conf_set_path p (P : pre) l c : stable P ->
    (forall S st, P S st -> okl l S st /\ okc c S st) -> conf P (set_path p l c) (fun _ => T).
  Proof.
    revert P l; induction p as [|e p IH]; intros P l SP H; cbn [set_path].
    - apply conf_assign; auto.
    - step conf_get_elem o. destruct o as [l'|].
      + apply IH; [stab|fin].
      + destruct p as [|e' p']; [apply conf_set_elem; [stab|fin]|].
        step conf_set_elem u. step conf_get_elem o2. destruct o2 as [l'|]; [|leaf].
        apply IH; [stab|fin].
  Qed.

  Lemma pure_load l : pure_m (load l).
  Proof. intros st. unfold load. destruct (peek st l); reflexivity. Qed.
  Lemma pure_get_storage s : pure_m (get_storage s).
  Proof. intros st. unfold get_storage. destruct (nth_error _ _); reflexivity. Qed.
  Lemma pure_ret {A} (a : A) : pure_m (ret a).
  Proof. intros st. reflexivity. Qed.
  Lemma pure_fail {A} (a : res A) : pure_m (fail a).
  Proof. intros st. reflexivity. Qed.
  Lemma pure_bind {A B} (m : M A) (f : A -> M B) : pure_m m -> (forall a, pure_m (f a)) -> pure_m (bind m f).
  Proof.
    intros H K st. unfold bind. specialize (H st). destruct (m st) as [r st1]. cbn in H. subst st1.
    destruct r; try reflexivity. apply K.
  Qed.
  Ltac pur := repeat first [apply pure_bind; [|intros ?] | apply pure_load | apply pure_get_storage | apply pure_ret
    | apply pure_fail | match goal with |- pure_m (match ?x with _ => _ end) => destruct x end].
  Lemma pure_get_list s : pure_m (get_list s). Proof. unfold get_list. pur. Qed.
  Lemma pure_get_map s : pure_m (get_map s). Proof. unfold get_map. pur. Qed.
  Lemma pure_get_str s : pure_m (get_str s). Proof. unfold get_str. pur. Qed.
  Lemma pure_get_blob s : pure_m (get_blob s). Proof. unfold get_blob. pur. Qed.
  Lemma pure_is_empty l : pure_m (is_empty l).
  Proof. unfold is_empty, get_str, get_list, get_map. pur. Qed.
  Lemma pure_size_of l : pure_m (size_of l).
  Proof. unfold size_of, get_str, get_list, get_map, get_blob. pur. Qed.

  Lemma conf_is_empty (P : pre) l : stable P -> conf P (is_empty l) (fun _ => T).
  Proof. intros _. apply conf_pure, pure_is_empty. Qed.

  Lemma conf_erase_path p (P : pre) l b : stable P ->
    (forall S st, P S st -> okl l S st) -> conf P (erase_path p l b) (fun _ => T).
  Proof.
    revert P l; induction p as [|e p IH]; intros P l SP H; cbn [erase_path].
    - leaf.
    - destruct p as [|e' p']; [apply conf_erase_elem; auto|].
      step conf_get_elem o. destruct o as [l'|]; [|leaf].
      eapply conf_bind; [stab|apply IH; [stab|fin]|intros u]. destruct b; [|leaf].
      step conf_is_empty b. destruct b; [apply conf_erase_elem; [stab|fin]|leaf].
  Qed.

  Lemma conf_clear (P : pre) l : stable P -> (forall S st, P S st -> okl l S st) -> conf P (clear l) (fun _ => T).
  Proof.
    intros SP H. unfold clear. step conf_load c. destruct c; try leaf; try (apply conf_store; fin).
    - eapply conf_bind; [stab|apply conf_pure, pure_get_str|intros u].
      apply conf_put_storage. intros S st [[HP HA] _]. cbn. repeat split; auto; try apply HA. intros ? [].
    - eapply conf_bind; [stab|apply conf_pure, pure_get_list|intros u].
      apply conf_put_storage. intros S st [[HP HA] _]. cbn. repeat split; auto; try apply HA. intros ? [].
    - eapply conf_bind; [stab|apply conf_pure, pure_get_map|intros u].
      apply conf_put_storage. intros S st [[HP HA] _]. cbn. repeat split; auto; try apply HA. intros ? [].
  Qed.

  Lemma conf_num_update (P : pre) l f : stable P -> (forall S st, P S st -> okl l S st) -> conf P (num_update l f) (fun _ => T).
  Proof.
    intros SP H. unfold num_update. step conf_load c.
    eapply conf_bind; [stab|apply conf_fail; instantiate (1 := fun _ => T); intros; exact Logic.I|intros v].
    apply conf_store. intros S st [[HP HA] _]. split; [apply H, HP|]. destruct v; exact Logic.I.
  Qed.

  Lemma conf_resolve_check (P : pre) r : stable P -> (forall S st, P S st -> okv r S st) ->
    conf P (resolve_check r) (fun o => okol o).
  Proof. intros SP H. destruct r; cbn [resolve_check]; [leaf|apply conf_get_path; auto]. Qed.
  Lemma conf_resolve_throw (P : pre) r : stable P -> (forall S st, P S st -> okv r S st) ->
    conf P (resolve_throw r) (fun l => okl l).
  Proof. intros SP H. destruct r; cbn [resolve_throw]; [leaf|]. step conf_get_path o. destruct o; leaf. Qed.
  Lemma conf_resolve_create (P : pre) r : stable P -> (forall S st, P S st -> okv r S st) ->
    conf P (resolve_create r) (fun l => okl l).
  Proof. intros SP H. destruct r; cbn [resolve_create]; [leaf|]. step conf_get_path_ref o. destruct o; leaf. Qed.

  Lemma conf_merge_keys ks (P : pre) l s : stable P -> (forall S st, P S st -> okl l S st /\ oks s KSMap S st) ->
    conf P (merge_keys l s ks) (fun _ => T).
  Proof.
    revert P; induction ks as [|k ks IH]; intros P SP H; cbn [merge_keys]; [leaf|].
    step conf_load c. step conf_set_key u. apply IH; [stab|fin].
  Qed.

  Lemma conf_merge (P : pre) r c : stable P -> (forall S st, P S st -> okv r S st /\ okc c S st) ->
    conf P (merge r c) (fun _ => T).
  Proof.
    intros SP H. unfold merge. destruct c; try leaf.
    step conf_get_map m. destruct (mkeys m) as [|k ks]; [leaf|].
    step conf_load c. step conf_resolve_create l. step conf_set_key u. step conf_get_map m2.
    apply conf_merge_keys; [stab|fin].
  Qed.

  Lemma conf_at_elem (P : pre) r e : stable P -> (forall S st, P S st -> okv r S st) ->
    conf P (at_elem r e) (fun r => okv r).
  Proof.
    intros SP H. unfold at_elem. step conf_resolve_check o. destruct o; [apply conf_get_ref_elem; [stab|fin]|].
    destruct r; leaf.
  Qed.

  Lemma conf_at_path (P : pre) r p : stable P -> (forall S st, P S st -> okv r S st) ->
    conf P (at_path r p) (fun r => okv r).
  Proof.
    intros SP H. unfold at_path. destruct p; [leaf|]. step conf_resolve_check o.
    destruct o; [apply conf_get_path_ref; [stab|fin]|]. destruct r; leaf.
  Qed.

  Lemma conf_eval_lval (P : pre) v : stable P -> V (lv_var v) -> conf P (eval_lval v) (fun r => okv r).
  Proof. intros SP H. unfold eval_lval. apply conf_at_path; auto. Qed.

  Lemma conf_read_lval (P : pre) v : stable P -> V (lv_var v) -> conf P (read_lval v) (fun c => okc c).
  Proof. intros SP H. unfold read_lval. step conf_eval_lval r. step conf_resolve_throw l. apply conf_load. fin. Qed.

  (** *** Copy *)
  Lemma conf_target_create (P : pre) d : stable P -> V (lv_var d) -> conf P (target_create d) (fun l => okl l).
  Proof. intros SP H. unfold target_create. step conf_eval_lval r. apply conf_resolve_create; [stab|fin]. Qed.
  Lemma conf_target (P : pre) d : stable P -> V (lv_var d) -> conf P (target d) (fun l => okl l).
  Proof. intros SP H. unfold target. step conf_eval_lval r. apply conf_resolve_throw; [stab|fin]. Qed.
  Lemma conf_target_erase (P : pre) d p : stable P -> V (lv_var d) -> conf P (target_erase d p) (fun l => okol l).
  Proof.
    intros SP H. unfold target_erase. step conf_eval_lval r. destruct p as [|e [|e' p]]; [leaf| |].
    - step conf_resolve_throw l. leaf.
    - apply conf_resolve_check; [stab|fin].
  Qed.
  Lemma conf_copy (P : pre) fuel c : stable P -> (forall S st, P S st -> okc c S st) ->
    conf P (copy fuel c) (fun c' => okc c').
  Proof.
    intros SP H S st r st' C HP E.
    assert (C0 : closed S none st). { destruct C. split; auto. intros ? ? []. }
    destruct (copy_grown fuel S c st r st' C0 (H _ _ HP) E) as [G I].
    eexists. split; [apply (grown_evolve V S st st' C G)|]. intros a Ea. eapply inside_mono; [| |apply (I _ Ea)]; auto.
  Qed.

  Definition rval_in (r : rval) : Prop := match r with RvOf v | RvCopy _ v => V (lv_var v) | _ => True end.
  Lemma conf_eval_rval (P : pre) r : stable P -> rval_in r -> conf P (eval_rval r) (fun c => okc c).
  Proof.
    intros SP H. destruct r; cbn [eval_rval]; try leaf.
    - eapply conf_bind; [stab|apply conf_alloc; cbn; intros; split; [exact I|intros ? []]|intros n]. leaf.
    - eapply conf_bind; [stab|apply conf_alloc; cbn; intros; split; [exact I|intros ? []]|intros n]. leaf.
    - eapply conf_bind; [stab|apply conf_alloc; cbn; intros; split; [exact I|intros ? []]|intros n]. leaf.
    - eapply conf_bind; [stab|apply conf_alloc; cbn; intros; split; [exact I|intros ? []]|intros n]. leaf.
    - apply conf_read_lval; auto.
    - step conf_read_lval c. apply conf_copy; [stab|fin].
  Qed.

  (** The variables an operation mentions. *)
  Definition op_in (o : op) : Prop :=
    match o with
    | OAssign d r | OSetElem d _ r | OAppend d r | OSetPath d _ r | OMerge d r | OAtDef d _ r | OAtPathDef d _ r
    | OArith _ d r => V (lv_var d) /\ rval_in r
    | OClear d | OErase d _ | OErasePath d _ _ | OAsList d | OAsMap d | OIncr d | ODecr d => V (lv_var d)
    end.

  Lemma conf_exec (P : pre) o : stable P -> op_in o -> conf P (exec o) (fun _ => T).
  Proof.
    intros SP H. destruct o; cbn [exec op_in] in *; try destruct H as [H1 H2].
    - step conf_eval_rval c; auto. step conf_target_create l; auto. apply conf_assign; [stab|fin].
    - step conf_target l; auto. apply conf_clear; [stab|fin].
    - step conf_eval_rval c; auto. step conf_target_create l; auto. apply conf_set_elem; [stab|fin].
    - step conf_eval_rval c; auto. step conf_target_create l; auto. apply conf_append; [stab|fin].
    - step conf_target l; auto. apply conf_erase_elem; [stab|fin].
    - step conf_eval_rval c; auto. step conf_target_create l; auto. apply conf_set_path; [stab|fin].
    - step conf_target_erase l; auto. destruct l; [apply conf_erase_path; [stab|fin]|leaf].
    - step conf_eval_rval c; auto. step conf_eval_lval l; auto. apply conf_merge; [stab|fin].
    - step conf_eval_rval c; auto. step conf_target_create l; auto. step conf_get_ref_elem u. leaf.
    - step conf_eval_rval c; auto. destruct p.
      + step conf_eval_lval l; auto. leaf.
      + step conf_target_create l; auto. step conf_get_path_ref u. leaf.
    - step conf_target_create l; auto. step conf_as_list u. leaf.
    - step conf_target_create l; auto. step conf_as_map u. leaf.
    - step conf_target l; auto. apply conf_num_update; [stab|fin].
    - step conf_target l; auto. apply conf_num_update; [stab|fin].
    - step conf_eval_rval c; auto. step conf_target l; auto. apply conf_num_update; [stab|fin].
  Qed.

  Lemma conf_execs os : Forall op_in os -> forall S st b st', closed S V st -> execs os st = (b, st') ->
    exists S', evolve V S st S' st'.
  Proof.
    induction os as [|o os IH]; intros F S st b st' C E; cbn [execs] in E.
    - injection E as <- <-. exists S. apply evolve_refl, C.
    - inversion F as [|? ? Ho Hos]; subst. destruct (exec o st) as [r st1] eqn:E1.
      destruct (conf_exec T o stable_T Ho S st r st1 C Logic.I E1) as (S1 & Ev & _).
      destruct r; try (injection E as <- <-; exists S1; exact Ev);
        (destruct (IH Hos S1 st1 b st' (ev_closed _ _ _ _ _ Ev) E) as (S2 & Ev2); exists S2; eapply evolve_trans; eauto).
  Qed.
End Side.
