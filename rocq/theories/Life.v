(** The lifetime of Variant objects and the references to them: src/Variant.cc,
    include/Variant/Variant.h, include/Variant/VariantInternal.h.

    Unlike Heap.v, which is about what the operations do to the data, this model is about
    which objects exist.  Every Variant object -- a variable, a temporary, an element of a
    std::vector, a value of a std::map -- has an address; addresses are never used again, so
    that any access to an object that is gone is visible, and is [UB].  Storages are freed when
    the last shared_ptr to them goes, as the reference counts do it.

    Simplifications.  Blobs are left out: a BlobStorage holds no Variant and Blob::Assign
    (src/Variant.cc:1380-1389) is String::Assign.  The order in which a map keeps its entries
    is not modelled (new ones are put at the end).  The objects of a storage that is freed
    are destructed in an order that is not modelled; nothing observes it.  Running out of
    memory is not modelled. *)
From Verif Require Import Base Float Value Path.
Open Scope N_scope.

(** ** States *)

(** src/Variant.cc:588-1419 the vtable of an object and its part of the union of
    include/Variant/VariantInternal.h:75-86: null, bool, integer, unsigned and float values are
    in the object ([KPlain]); the others name a storage or, for a VariantRef, the object it
    refers to.  [KNone] is an object between Destroy and the assignment of the new vtable: its
    storage is released; [r] says whether it was a reference or a proxy. *)
Inductive content :=
| KNone (r : bool)
| KPlain (v : value)
| KStr (s : nat)
| KList (s : nat)
| KMap (s : nat)
| KRef (t : nat)
| KProxy (s : nat).

(** src/Variant.cc:117-155 the storages.  ListStorage and MapStorage hold the addresses of
    their elements.  ProxyStorage: the object a proxy starts from, the storage that object had
    when the proxy was made, kept alive by the proxy, and the path. *)
Inductive sto :=
| SStr (b : bytes)
| SList (l : list nat)
| SMap (m : list (bytes * nat))
| SProxy (t : nat) (keep : option nat) (p : path).

(** include/Variant/VariantInternal.h:72-89 struct Data: the member ref_data is the number of a
    RefData. *)
Record obj := Obj { o_c : content; o_tok : option nat }.

(** The objects and storages by number, [None] for the ones that are gone or not yet made, and
    the flag RefData::valid (src/Variant.cc:112-115) of every RefData; the next free number of
    each.  [l_pins]: the storages held by the local shared_ptr of the functions that are
    running.  [l_coins]: for each time that a vector grows, whether it has to move. *)
Record lst := LState {
  l_obj : nat -> option obj;
  l_no : nat;
  l_sto : nat -> option sto;
  l_ns : nat;
  l_tok : nat -> bool;
  l_nt : nat;
  l_pins : list nat;
  l_coins : list bool
}.

Definition upd {A} (f : nat -> A) (a : nat) (x : A) : nat -> A :=
  fun b => if Nat.eqb b a then x else f b.

Definition set_objs (st : lst) (f : nat -> option obj) : lst :=
  LState f (l_no st) (l_sto st) (l_ns st) (l_tok st) (l_nt st) (l_pins st) (l_coins st).
Definition set_stos (st : lst) (f : nat -> option sto) : lst :=
  LState (l_obj st) (l_no st) f (l_ns st) (l_tok st) (l_nt st) (l_pins st) (l_coins st).
Definition set_toks (st : lst) (f : nat -> bool) : lst :=
  LState (l_obj st) (l_no st) (l_sto st) (l_ns st) f (l_nt st) (l_pins st) (l_coins st).
Definition set_pins (st : lst) (p : list nat) : lst :=
  LState (l_obj st) (l_no st) (l_sto st) (l_ns st) (l_tok st) (l_nt st) p (l_coins st).
Definition set_coins (st : lst) (p : list bool) : lst :=
  LState (l_obj st) (l_no st) (l_sto st) (l_ns st) (l_tok st) (l_nt st) (l_pins st) p.

(** The state before the program starts. *)
Definition empty_state (coins : list bool) : lst :=
  LState (fun _ => None) 0 (fun _ => None) 0 (fun _ => false) 0 [] coins.

(** Data::storage (include/Variant/VariantInternal.h:88) of an object. *)
Definition holds (c : content) : option nat :=
  match c with KStr s | KList s | KMap s | KProxy s => Some s | _ => None end.

(** Whether the vtable is Ref (src/Variant.cc:1425-1636) or Proxy (1638-1941). *)
Definition is_ref (c : content) : bool :=
  match c with KRef _ | KProxy _ => true | KNone r => r | _ => false end.

(** The Variants that live in a storage: src/Variant.cc:124-132. *)
Definition elems (s : sto) : list nat :=
  match s with SList l => l | SMap m => map snd m | _ => [] end.

(** ** Freeing: the destructors of shared_ptr<Storage> *)

(** Whether some shared_ptr to storage [s] exists: in an object, in a ProxyStorage
    (src/Variant.cc:152), in a local variable. *)
Definition obj_holds (st : lst) (s a : nat) : bool :=
  match l_obj st a with
  | Some o => match holds (o_c o) with Some s' => Nat.eqb s' s | None => false end
  | None => false
  end.
Definition proxy_keeps (st : lst) (s z : nat) : bool :=
  match l_sto st z with
  | Some (SProxy _ (Some s') _) => Nat.eqb s' s
  | _ => false
  end.
Definition owned (st : lst) (s : nat) : bool :=
  existsb (obj_holds st s) (seq 0 (l_no st))
  || existsb (proxy_keeps st s) (seq 0 (l_ns st))
  || existsb (Nat.eqb s) (l_pins st).

(** src/Variant.cc:527-533 VTable::Destruct, and Ref::Destruct and Proxy::Destruct (1605-1608,
    1901-1904), which leave the RefData alone because it belongs to the object referred to.
    The storage of the object is released with it. *)
Definition kill_obj (st : lst) (a : nat) : lst :=
  match l_obj st a with
  | None => st
  | Some o =>
      let st1 := set_objs st (upd (l_obj st) a None) in
      if is_ref (o_c o) then st1
      else match o_tok o with
           | Some k => set_toks st1 (upd (l_tok st1) k false)
           | None => st1
           end
  end.

(** src/Variant.cc:117-155 the destructors of the storages: the Variants in it are destructed. *)
Definition kill_sto (st : lst) (s : nat) : lst :=
  match l_sto st s with
  | None => st
  | Some x => fold_left kill_obj (elems x) (set_stos st (upd (l_sto st) s None))
  end.

(** The storages that no shared_ptr holds any more are freed, and those that this leaves
    without one, and so on.  [l_ns] rounds are enough, each frees one. *)
Definition garbage (st : lst) : option nat :=
  find (fun s => match l_sto st s with Some _ => negb (owned st s) | None => false end)
       (seq 0 (l_ns st)).
Fixpoint gc (n : nat) (st : lst) : lst :=
  match n with
  | O => st
  | S m => match garbage st with None => st | Some s => gc m (kill_sto st s) end
  end.

(** ** Computations: the result together with the state, also when an exception is thrown *)
Definition L (A : Type) : Type := lst -> res A * lst.
Definition lret {A} (a : A) : L A := fun st => (Ok a, st).
Definition lbind {A B} (m : L A) (f : A -> L B) : L B := fun st =>
  match m st with
  | (Ok a, st1) => f a st1
  | (Throw e, st1) => (Throw e, st1)
  | (UB, st1) => (UB, st1)
  | (Abort, st1) => (Abort, st1)
  | (Fuel, st1) => (Fuel, st1)
  end.
Definition lfail {A} (r : res A) : L A := fun st => (r, st).
Notation "'dl' x <- m ; k" := (lbind m (fun x => k))
  (at level 200, x pattern, m at level 100, k at level 200, right associativity).
Notation "m >>> k" := (lbind m (fun _ => k)) (at level 60, right associativity).

(** Reading and writing an object or a storage: undefined when it is gone. *)
Definition get_obj (a : nat) : L obj := fun st =>
  match l_obj st a with Some o => (Ok o, st) | None => (UB, st) end.
Definition set_obj (a : nat) (o : obj) : L unit := fun st =>
  match l_obj st a with
  | Some _ => (Ok tt, set_objs st (upd (l_obj st) a (Some o)))
  | None => (UB, st)
  end.
Definition set_content (a : nat) (c : content) : L unit :=
  dl o <- get_obj a; set_obj a (Obj c (o_tok o)).
Definition get_sto (s : nat) : L sto := fun st =>
  match l_sto st s with Some x => (Ok x, st) | None => (UB, st) end.
Definition set_sto (s : nat) (x : sto) : L unit := fun st =>
  match l_sto st s with
  | Some _ => (Ok tt, set_stos st (upd (l_sto st) s (Some x)))
  | None => (UB, st)
  end.

(** A new object: src/Variant.cc:1979 Data::Data(), include/Variant/Variant.h:99 and, with
    another content than null, the copy constructor (line 116) on an object that is neither a
    reference nor a proxy. *)
Definition new_obj (c : content) : L nat := fun st =>
  (Ok (l_no st),
   LState (upd (l_obj st) (l_no st) (Some (Obj c None))) (S (l_no st)) (l_sto st) (l_ns st)
          (l_tok st) (l_nt st) (l_pins st) (l_coins st)).
(** A new storage: the operator new of the Init functions. *)
Definition new_sto (x : sto) : L nat := fun st =>
  (Ok (l_ns st),
   LState (l_obj st) (l_no st) (upd (l_sto st) (l_ns st) (Some x)) (S (l_ns st))
          (l_tok st) (l_nt st) (l_pins st) (l_coins st)).
(** A new RefData: src/Variant.cc:112-115. *)
Definition new_tok : L nat := fun st =>
  (Ok (l_nt st),
   LState (l_obj st) (l_no st) (l_sto st) (l_ns st)
          (upd (l_tok st) (l_nt st) true) (S (l_nt st)) (l_pins st) (l_coins st)).

(** The storages that have just lost their last shared_ptr are freed. *)
Definition collect : L unit := fun st => (Ok tt, gc (l_ns st) st).

(** A local variable shared_ptr<Storage> storage during [m]: src/Variant.cc:1021, 1131, 1270. *)
Definition pin {A} (s : nat) (m : L A) : L A := fun st =>
  let (r, st1) := m (set_pins st (s :: l_pins st)) in
  let st2 := set_pins st1 (l_pins st) in
  (r, gc (l_ns st2) st2).

(** ~Variant (src/Variant.cc:1999-2001) of a variable or temporary. *)
Definition destruct_obj (a : nat) : L unit := fun st =>
  match l_obj st a with
  | None => (UB, st)
  | Some _ => let st1 := kill_obj st a in (Ok tt, gc (l_ns st1) st1)
  end.

(** A temporary or a parameter passed by value, which is destructed when the function is left
    in any way. *)
Definition with_temp {A} (f : nat -> L A) : L A := fun st =>
  let (r0, st0) := new_obj (KPlain VNull) st in
  match r0 with
  | Ok a =>
      match f a st0 with
      | (UB, st1) => (UB, st1)
      | (r, st1) => match destruct_obj a st1 with
                    | (UB, st2) => (UB, st2)
                    | (_, st2) => (r, st2)
                    end
      end
  | _ => (UB, st0)
  end.

(** A VariantRef that is made by [f] and returned; when the constructor throws there is no
    object: include/Variant/VariantInternal.h:45-52, src/Variant.cc:1989-1997. *)
Definition construct (f : nat -> L unit) : L nat := fun st =>
  let (r0, st0) := new_obj (KPlain VNull) st in
  match r0 with
  | Ok a =>
      match f a st0 with
      | (Ok _, st1) => (Ok a, st1)
      | (Throw e, st1) => let (_, st2) := destruct_obj a st1 in (Throw e, st2)
      | (UB, st1) => (UB, st1)
      | (Abort, st1) => (Abort, st1)
      | (Fuel, st1) => (Fuel, st1)
      end
  | _ => (UB, st0)
  end.

(** ** Destroying the content of an object and giving it another *)

(** src/Variant.cc:521-525 VTable::Destroy (String::Destroy 1077-1080 and so on also clear the
    union).  The line "that->vtable = 0" is a write to the object after its storage was
    released. *)
Definition destroy (a : nat) : L unit :=
  dl o <- get_obj a;
  match o_c o with
  | KNone _ => lfail UB
  | c => set_content a (KNone (is_ref c)) >>> collect >>> (dl _ <- get_obj a; lret tt)
  end.

(** src/Variant.cc:669-672 NullInit, 731-735 BoolInit, 861-865 IntegerInit, 921-925
    UnsignedInit, 982-986 FloatInit.  The value is passed by value. *)
Definition plain_init (a : nat) (v : value) : L unit :=
  destroy a >>> set_content a (KPlain v).
(** src/Variant.cc:1082-1088 StringInit. *)
Definition str_init (a : nat) (b : bytes) : L unit :=
  destroy a >>> (dl s <- new_sto (SStr b); set_content a (KStr s)).
(** src/Variant.cc:1222-1228 ListInit with an empty list. *)
Definition list_init (a : nat) : L unit :=
  destroy a >>> (dl s <- new_sto (SList []); set_content a (KList s)).
(** src/Variant.cc:1348-1354 MapInit with an empty map. *)
Definition map_init (a : nat) : L unit :=
  destroy a >>> (dl s <- new_sto (SMap []); set_content a (KMap s)).

(** ** References and proxies *)

(** src/Variant.cc:1477-1481 CheckRef. *)
Definition check_ref (o : obj) : L unit := fun st =>
  match o_tok o with
  | Some k => if l_tok st k then (Ok tt, st) else (Throw InvalidReferenceError, st)
  | None => (Throw InvalidReferenceError, st)
  end.

(** src/Variant.cc:514-519 VTable::EnsureRef. *)
Definition ensure_ref (t : nat) : L nat :=
  dl o <- get_obj t;
  match o_tok o with
  | Some k => lret k
  | None => dl k <- new_tok; set_obj t (Obj (o_c o) (Some k)) >>> lret k
  end.

(** src/Variant.cc:1629-1636 RefInit.  The three members are set at once. *)
Definition ref_init (a t : nat) : L unit :=
  destroy a >>> (dl k <- ensure_ref t; set_obj a (Obj (KRef t) (Some k))).

(** src/Variant.cc:1932-1941 ProxyInit, with the path given by [p]: it is read when the new
    ProxyStorage is made. *)
Definition proxy_init (a t : nat) (p : L path) : L unit :=
  destroy a >>>
  (dl k <- ensure_ref t;
   dl o <- get_obj t;
   dl q <- p;
   dl s <- new_sto (SProxy t (holds (o_c o)) q);
   set_obj a (Obj (KProxy s) (Some k))).

(** The path of a ProxyStorage, read through iterators into it: src/Variant.cc:1732. *)
Definition proxy_path (s : nat) : L path :=
  dl x <- get_sto s; match x with SProxy _ _ p => lret p | _ => lfail UB end.

(** src/Variant.cc:257-259 VTable::MakeRef, 1489-1490 Ref::MakeRef, 1730-1733 Proxy::MakeRef. *)
Definition make_ref (src a : nat) : L unit :=
  dl o <- get_obj src;
  match o_c o with
  | KNone _ => lfail UB
  | KRef t => check_ref o >>> ref_init a t
  | KProxy s =>
      check_ref o >>>
      (dl x <- get_sto s;
       match x with SProxy t _ _ => proxy_init a t (proxy_path s) | _ => lfail UB end)
  | _ => ref_init a src
  end.

(** ** Elements.  The functions of this section are called with objects that are neither
    references nor proxies: those delegate to the object they refer to first.  On such an
    object the functions below answer [UB], which stands for "not modelled"; the theorems
    show that it does not happen. *)

Definition find_key (m : list (bytes * nat)) (k : bytes) : option nat :=
  match find (fun x => beqb (fst x) k) m with Some (_, a) => Some a | None => None end.
Definition nth_elem (l : list nat) (i : N) : option nat := nth_error l (N.to_nat i).

(** src/Variant.cc:357-371 GetPathElem: GetConstKey and GetKey, GetConstIndex and GetIndex of
    Null (629-662), List (1179-1197), Map (1304-1324) and of the other types (308-347). *)
Definition get_elem (t : nat) (e : pelem) (checked : bool) : L (option nat) :=
  dl o <- get_obj t;
  match o_c o, e with
  | (KNone _ | KRef _ | KProxy _), _ => lfail UB
  | KPlain VNull, PKey _ => if checked then lfail (Throw KeyError) else lret None
  | KPlain VNull, PIdx _ => if checked then lfail (Throw OutOfRange) else lret None
  | KMap s, PKey k =>
      dl x <- get_sto s;
      match x with
      | SMap m => match find_key m k with
                  | Some u => lret (Some u)
                  | None => if checked then lfail (Throw KeyError) else lret None
                  end
      | _ => lfail UB
      end
  | KList s, PIdx i =>
      dl x <- get_sto s;
      match x with
      | SList l => match nth_elem l i with
                   | Some u => lret (Some u)
                   | None => if checked then lfail (Throw OutOfRange) else lret None
                   end
      | _ => lfail UB
      end
  | _, _ => if checked then lfail (Throw UnexpectedTypeError) else lret None
  end.

(** src/Variant.cc:409-430 VTable::GetPathConst.  With [checked] a missing element throws in
    GetPathElem. *)
Fixpoint get_path_const (t : nat) (p : path) (checked : bool) : L (option nat) :=
  match p with
  | [] => lret (Some t)
  | e :: p' =>
      dl r <- get_elem t e checked;
      match r with
      | None => lret None
      | Some u => match p' with [] => lret (Some u) | _ => get_path_const u p' checked end
      end
  end.

(** ** Growing vectors *)

(** Whether the vector has to move this time. *)
Definition coin : L bool := fun st =>
  match l_coins st with
  | [] => (Ok false, st)
  | b :: r => (Ok b, set_coins st r)
  end.
Fixpoint new_objs (cs : list content) : L (list nat) :=
  match cs with
  | [] => lret []
  | c :: r => dl a <- new_obj c; dl l <- new_objs r; lret (a :: l)
  end.
(** The copies of the elements in the new place: Variant(const Variant &), which shares the
    storage (include/Variant/Variant.h:116, src/Variant.cc:1129-1138). *)
Fixpoint contents (l : list nat) : L (list content) :=
  match l with
  | [] => lret []
  | a :: r => dl o <- get_obj a; dl cs <- contents r;
              if is_ref (o_c o) then lfail UB else lret (o_c o :: cs)
  end.
Definition kill_all (l : list nat) : L unit := fun st =>
  let st1 := fold_left kill_obj l st in (Ok tt, gc (l_ns st1) st1).

(** std::vector<Variant>: elements with the contents [cs] are added to the vector of list
    storage [s].  When it has to move, all its elements are copied to new addresses and the old
    ones destructed. *)
Definition grow (s : nat) (l : list nat) (cs : list content) : L unit :=
  dl b <- coin;
  if b then
    dl old <- contents l;
    dl l' <- new_objs old;
    dl x <- new_objs cs;
    set_sto s (SList (l' ++ x)) >>> kill_all l
  else
    dl x <- new_objs cs;
    set_sto s (SList (l ++ x)).

(** std::vector<Variant>::resize(n) of storage [s]. *)
Definition resize (s : nat) (l : list nat) (n : N) : L unit :=
  let n' := N.to_nat n in
  if Nat.leb (List.length l) n' then grow s l (repeat (KPlain VNull) (n' - List.length l))
  else set_sto s (SList (firstn n' l)) >>> kill_all (skipn n' l).

(** The storage of the list [t], of the map [t]: that->l, that->m. *)
Definition list_of (t : nat) : L (nat * list nat) :=
  dl o <- get_obj t;
  match o_c o with
  | KList s => dl x <- get_sto s; match x with SList l => lret (s, l) | _ => lfail UB end
  | _ => lfail UB
  end.
Definition map_of (t : nat) : L (nat * list (bytes * nat)) :=
  dl o <- get_obj t;
  match o_c o with
  | KMap s => dl x <- get_sto s; match x with SMap m => lret (s, m) | _ => lfail UB end
  | _ => lfail UB
  end.

(** The element that list [t] has at index [i] after it was made long enough: src/Variant.cc
    1165-1177 List::GetRefIndex, 1199-1204 List::SetIndex.  i + 1 is an unsigned. *)
Definition list_slot (t : nat) (i : N) : L nat :=
  dl sl <- list_of t;
  let (s, l) := sl in
  (if N.ltb i (N.of_nat (List.length l)) then lret tt else resize s l ((i + 1) mod 2 ^ 32)) >>>
  (dl sl' <- list_of t;
   match nth_elem (snd sl') i with Some u => lret u | None => lfail (Throw OutOfRange) end).
(** The value that map [t] has at key [k] after an insertion: src/Variant.cc:1293-1302
    Map::GetRefKey, 1326-1329 Map::SetKey. *)
Definition map_slot (t : nat) (k : bytes) : L nat :=
  dl sm <- map_of t;
  let (s, m) := sm in
  match find_key m k with
  | Some u => lret u
  | None => dl u <- new_obj (KPlain VNull); set_sto s (SMap (m ++ [(k, u)])) >>> lret u
  end.

(** The element [e] of [t], made when missing: src/Variant.cc:373-387 SetPathElem and
    GetRefPathElem with a default of null, for Null (616-621, 634-637, 646-651, 664-667), List,
    Map and the other types (305-306, 318-319, 333-334, 349-350).  Assigning null to an element that
    was just made null changes nothing and is left out. *)
Definition slot (t : nat) (e : pelem) : L nat :=
  dl o <- get_obj t;
  match o_c o, e with
  | (KNone _ | KRef _ | KProxy _), _ => lfail UB
  | KPlain VNull, PIdx i => list_init t >>> list_slot t i
  | KPlain VNull, PKey k => map_init t >>> map_slot t k
  | KList _, PIdx i => list_slot t i
  | KMap _, PKey k => map_slot t k
  | _, _ => lfail (Throw UnexpectedTypeError)
  end.

(** src/Variant.cc:380-407 VTable::GetPathRef with a default of null: the object that the
    VariantRef it returns refers to.  After SetPathElem the function is called again and finds
    the element that was made. *)
Fixpoint get_path_ref (t : nat) (p : path) : L nat :=
  match p with
  | [] => lret t
  | e :: p' =>
      dl r <- get_elem t e false;
      dl u <- (match r with
               | Some u => lret u
               | None => slot t e
               end);
      get_path_ref u p'
  end.

(** ** Using a reference *)

(** What Proxy functions begin with: src/Variant.cc:1693-1706 ProxyResolveCheck ([RCheck]),
    1708-1716 ProxyResolveThrow ([RThrow]), 1718-1726 ProxyResolveCreate ([RCreate]).  In the
    last the temporary VariantRef to the object found is left out.  The answer says whether the
    proxy has become a reference. *)
Inductive rmode := RCheck | RThrow | RCreate.
Definition proxy_resolve (a : nat) (m : rmode) : L bool :=
  dl o <- get_obj a;
  match o_c o with
  | KProxy s =>
      check_ref o >>>
      (dl x <- get_sto s;
       match x with
       | SProxy t _ p =>
           dl r <- (match m with
                    | RCheck => get_path_const t p false
                    | RThrow => get_path_const t p true
                    | RCreate => dl u <- get_path_ref t p; lret (Some u)
                    end);
           match r with
           | Some u => make_ref u a >>> lret true
           | None => match m with RCheck => lret false | _ => lfail UB end
           end
       | _ => lfail UB
       end)
  | _ => lfail UB
  end.

(** The object that is reached from a reference, which must be an ordinary one: the access
    that->ref->vtable of the functions of Ref, src/Variant.cc:1483-1627. *)
Definition target (o : obj) (t : nat) : L nat :=
  check_ref o >>>
  (dl x <- get_obj t; if is_ref (o_c x) then lfail UB else lret t).

(** The object that a use of [a] acts on: the functions of Ref call CheckRef and go to the
    object referred to; those of Proxy resolve it in mode [m] first and are then those of Ref;
    the others act on [a].  src/Variant.cc:1483-1627, 1728-1930; 535-545 VTable::Resolve. *)
Definition reach (m : rmode) (a : nat) : L nat :=
  dl o <- get_obj a;
  match o_c o with
  | KNone _ => lfail UB
  | KRef t => target o t
  | KProxy _ =>
      proxy_resolve a m >>>
      (dl o' <- get_obj a;
       match o_c o' with KRef t => target o' t | _ => lfail UB end)
  | _ => lret a
  end.

(** src/Variant.cc:543-548 VTable::Exists, 1622-1624 Ref::Exists, 1921-1930 Proxy::Exists. *)
Definition exists_ref (a : nat) : L bool :=
  dl o <- get_obj a;
  match o_c o with
  | KNone _ => lfail UB
  | KRef _ => fun st => (Ok (match o_tok o with Some k => l_tok st k | None => false end), st)
  | KProxy s => fun st =>
      match o_tok o with
      | Some k =>
          if l_tok st k then
            (dl x <- get_sto s;
             match x with
             | SProxy t _ p => dl r <- get_path_const t p false;
                               lret (match r with Some _ => true | None => false end)
             | _ => lfail UB
             end) st
          else (Ok false, st)
      | None => (Ok false, st)
      end
  | _ => lret true
  end.

(** ** Operations on Variants *)

(** src/Variant.cc:2203-2204 Variant::Assign(const Variant &), for a source that is not a
    reference: 254-255 VTable::Assign calls Copy on the source after the destination was
    resolved, which for everything but null reads the source again; 1019-1028 String::Assign,
    1129-1138 List::Assign, 1268-1277 Map::Assign take the storage first. *)
Definition assign_from (t dst : nat) : L unit :=
  dl o <- get_obj t;
  match o_c o with
  | KPlain VNull => dl d <- reach RCreate dst; plain_init d VNull
  | KPlain _ =>
      dl d <- reach RCreate dst;
      dl o' <- get_obj t;
      match o_c o' with KPlain v => plain_init d v | _ => lfail UB end
  | KStr s | KList s | KMap s =>
      pin s (dl d <- reach RCreate dst; destroy d >>> set_content d (o_c o))
  | _ => lfail UB
  end.
(** The same for any source: Ref::Assign and Proxy::Assign, src/Variant.cc:1486-1487,
    1727-1728. *)
Definition assign (src dst : nat) : L unit :=
  dl t <- reach RThrow src; assign_from t dst.

(** What reading an object gives: its type with its value, its text, the number of its
    elements or its keys. *)
Inductive view := RPlain (v : value) | RStr (b : bytes) | RList (n : N) | RMap (ks : list bytes).
Definition read_obj (t : nat) : L view :=
  dl o <- get_obj t;
  match o_c o with
  | KPlain v => lret (RPlain v)
  | KStr s | KList s | KMap s =>
      dl x <- get_sto s;
      match x with
      | SStr b => lret (RStr b)
      | SList l => lret (RList (N.of_nat (List.length l)))
      | SMap m => lret (RMap (map fst m))
      | _ => lfail UB
      end
  | _ => lfail UB
  end.

(** src/Variant.cc:2062-2065 Variant::Append: AsList of Null (612-615), List (1152) and the
    other types (292-293), then push_back of the parameter [v]. *)
Definition append (a v : nat) : L unit :=
  dl t <- reach RCreate a;
  dl o <- get_obj t;
  (match o_c o with
   | KPlain VNull => list_init t
   | KList _ => lret tt
   | _ => lfail (Throw UnableToConvertError)
   end) >>>
  (dl sl <- list_of t;
   dl ov <- get_obj v;
   if is_ref (o_c ov) then lfail UB else grow (fst sl) (snd sl) [o_c ov]).

(** src/Variant.cc:2103-2106, 2117-2120 Variant::Set with the parameter [v]: SetIndex, SetKey. *)
Definition set_elem (a : nat) (e : pelem) (v : nat) : L unit :=
  dl t <- reach RCreate a;
  dl u <- slot t e;
  assign_from v u.

Definition rem_key (m : list (bytes * nat)) (k : bytes) : list (bytes * nat) :=
  filter (fun x => negb (beqb (fst x) k)) m.

(** src/Variant.cc:1154-1163 List::EraseIndex, 1291 Map::EraseKey, 616, 642 of Null, 302-303,
    330-331 of the other types. *)
Definition erase_elem (a : nat) (e : pelem) : L unit :=
  dl t <- reach RThrow a;
  dl o <- get_obj t;
  match o_c o, e with
  | KPlain VNull, _ => lret tt
  | KList s, PIdx i =>
      dl sl <- list_of t;
      let l := snd sl in
      if N.ltb ((i + 1) mod 2 ^ 32) (N.of_nat (List.length l)) then
        match nth_elem l i with Some u => plain_init u VNull | None => lfail (Throw OutOfRange) end
      else if N.ltb i (N.of_nat (List.length l)) then
        set_sto s (SList (removelast l)) >>> kill_all [last l O]
      else lret tt
  | KMap s, PKey k =>
      dl sm <- map_of t;
      match find_key (snd sm) k with
      | Some u => set_sto s (SMap (rem_key (snd sm) k)) >>> kill_all [u]
      | None => lret tt
      end
  | _, _ => lfail (Throw UnexpectedTypeError)
  end.

(** src/Variant.cc:2039-2040 Variant::Clear: 290 VTable::Clear, 610 Null, 1066 String, 1150 List,
    1281 Map. *)
Definition clear (a : nat) : L unit :=
  dl t <- reach RThrow a;
  dl o <- get_obj t;
  match o_c o with
  | KPlain VNull => lret tt
  | KPlain _ => plain_init t VNull
  | KStr s => set_sto s (SStr [])
  | KList s => dl sl <- list_of t; set_sto s (SList []) >>> kill_all (snd sl)
  | KMap s => dl sm <- map_of t; set_sto s (SMap []) >>> kill_all (map snd (snd sm))
  | _ => lfail UB
  end.

(** src/Variant.cc:2068-2072 Variant::At: GetRefIndex and GetRefKey without a default, of Null
    (616-621, 646-651), List, Map, the other types and Proxy (1793-1806, 1844-1855): a reference to the
    element, or a proxy for a missing one. *)
Definition make_at (a : nat) (e : pelem) (r : nat) : L unit :=
  dl o <- get_obj a;
  let at_obj t :=
    dl x <- get_obj t;
    match o_c x, e with
    | KPlain VNull, _ => proxy_init r t (lret [e])
    | KList _, PIdx _ | KMap _, PKey _ =>
        dl u <- get_elem t e false;
        match u with
        | Some u => ref_init r u
        | None => proxy_init r t (lret [e])
        end
    | (KNone _ | KRef _ | KProxy _), _ => lfail UB
    | _, _ => lfail (Throw UnexpectedTypeError)
    end in
  match o_c o with
  | KProxy s =>
      dl b <- proxy_resolve a RCheck;
      if b then dl t <- reach RCheck a; at_obj t
      else dl x <- get_sto s;
           match x with
           | SProxy t _ p => proxy_init r t (lret (p ++ [e]))
           | _ => lfail UB
           end
  | _ => dl t <- reach RCheck a; at_obj t
  end.

(** ** Programs *)

(** One call of a program that uses Variants. *)
Inductive op :=
| ONew                                (* Variant x; *)
| ODelete (a : nat)                   (* x goes out of scope *)
| OPlain (a : nat) (v : value)        (* x = 5 and so on *)
| OStr (a : nat) (b : bytes)          (* x = "text" *)
| OAssign (src dst : nat)             (* dst = src *)
| OCopy (src : nat)                   (* Variant y(src) *)
| ORef (a : nat)                      (* VariantRef r(x), x.Ref() *)
| OReassign (r a : nat)               (* r.ReassignRef(x) *)
| OAt (a : nat) (e : pelem)           (* VariantRef r = x[e] *)
| OAppend (a src : nat)               (* x.Append(y) *)
| OSet (a : nat) (e : pelem) (src : nat) (* x.Set(e, y) *)
| OErase (a : nat) (e : pelem)        (* x.Erase(e) *)
| OClear (a : nat)                    (* x.Clear() *)
| ORead (a : nat)                     (* x.GetType(), x.AsInt(), x.Size() ... *)
| OExists (a : nat).                  (* x.Exists() *)

Inductive answer := ADone | AObj (a : nat) | AView (v : view) | ABool (b : bool).

Definition run (p : op) : L answer :=
  match p with
  | ONew => dl a <- new_obj (KPlain VNull); lret (AObj a)
  | ODelete a => destruct_obj a >>> lret ADone
  | OPlain a v => dl d <- reach RCreate a; plain_init d v >>> lret ADone
  | OStr a b => dl d <- reach RCreate a; str_init d b >>> lret ADone
  | OAssign src dst => assign src dst >>> lret ADone
  | OCopy src => dl a <- construct (assign src); lret (AObj a)
  | ORef a => dl r <- construct (make_ref a); lret (AObj r)
  | OReassign r a => make_ref a r >>> lret ADone
  | OAt a e => dl r <- construct (make_at a e); lret (AObj r)
  | OAppend a src => with_temp (fun v => assign src v >>> append a v) >>> lret ADone
  | OSet a e src => with_temp (fun v => assign src v >>> set_elem a e v) >>> lret ADone
  | OErase a e => erase_elem a e >>> lret ADone
  | OClear a => clear a >>> lret ADone
  | ORead a => dl t <- reach RThrow a; dl v <- read_obj t; lret (AView v)
  | OExists a => dl b <- exists_ref a; lret (ABool b)
  end.

Fixpoint run_all (ps : list op) : L unit :=
  match ps with
  | [] => lret tt
  | p :: r => fun st =>
      match run p st with
      | (Ok _, st1) | (Throw _, st1) => run_all r st1
      | (UB, st1) => (UB, st1)
      | (Abort, st1) => (Abort, st1)
      | (Fuel, st1) => (Fuel, st1)
      end
  end.
