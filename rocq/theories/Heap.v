(** Model of Variants with shared storage: src/Variant.cc, include/Variant/Variant.h.

    A Variant object is a [cell]; the storages of strings, lists, maps and blobs live in a
    heap and are shared by the cells that hold their number, as the shared_ptr<Storage> of
    include/Variant/VariantInternal.h:72-89 are.  Two simplifications: storages are never
    freed here and the elements of a vector do not move when it grows, so the lifetime of
    objects is not part of this model (Life.v is about that); and running out of memory is
    not modelled. *)
From Verif Require Import Base Float Value Blob Path Numeric.
Open Scope N_scope.

(** A Variant that is not a reference: src/Variant.cc vtables Null, Bool, Integer, Unsigned,
    Float, String, List, Map, Blob, with the union of include/Variant/VariantInternal.h:75-86.
    The BlobPtr of a blob may be null (DefaultInit, src/Variant.cc:1975); a BlobStorage is
    never modified, so a blob cell holds the Blob object itself. *)
Inductive cell :=
| CNull | CBool (b : bool) | CInt (z : Z) | CUns (n : N) | CFlt (x : spec_float)
| CStr (s : nat) | CList (s : nat) | CMap (s : nat) | CBlob (s : option nat).

(** src/Variant.cc:117-155 the storages. *)
Inductive storage :=
| StStr (b : bytes)
| StList (l : list cell)
| StMap (m : list (bytes * cell))
| StBlob (b : blob).

(** The Variant variables of the program and the storages, by number. *)
Record hstate := HState { h_vars : list cell; h_heap : list storage }.

(** Where a Variant object is: a variable, an element of a list storage, a value of a map
    storage. *)
Inductive loc := LVar (x : nat) | LIdx (s : nat) (i : N) | LKey (s : nat) (k : bytes).

(** ** Computations: the result together with the state, also when an exception is thrown *)
Definition M (A : Type) : Type := hstate -> res A * hstate.
Definition ret {A} (a : A) : M A := fun st => (Ok a, st).
Definition bind {A B} (m : M A) (f : A -> M B) : M B := fun st =>
  match m st with
  | (Ok a, st1) => f a st1
  | (Throw e, st1) => (Throw e, st1)
  | (UB, st1) => (UB, st1)
  | (Abort, st1) => (Abort, st1)
  | (Fuel, st1) => (Fuel, st1)
  end.
Definition fail {A} (r : res A) : M A := fun st => (r, st).
Definition throw {A} (e : exn) : M A := fail (Throw e).
Notation "'let*' x := m 'in' k" := (bind m (fun x => k))
  (at level 200, x pattern, m at level 100, k at level 200, right associativity).
Notation "m ;; k" := (bind m (fun _ => k)) (at level 100, k at level 200, right associativity).

(** Replacing an element. *)
Fixpoint lput {A} (l : list A) (i : nat) (x : A) : list A :=
  match l, i with
  | [], _ => []
  | _ :: t, O => x :: t
  | y :: t, S j => y :: lput t j x
  end.
(** std::vector<Variant>::resize(n). *)
Definition lresize (l : list cell) (n : N) : list cell :=
  firstn (N.to_nat n) l ++ repeat CNull (N.to_nat n - List.length l).
(** std::vector::size, a size_t. *)
Definition lsize {A} (l : list A) : N := N.of_nat (List.length l).
Definition nthN {A} (l : list A) (i : N) : option A := nth_error l (N.to_nat i).

(** The object at a location. *)
Definition peek (st : hstate) (l : loc) : option cell :=
  match l with
  | LVar x => nth_error (h_vars st) x
  | LIdx s i => match nth_error (h_heap st) s with Some (StList c) => nthN c i | _ => None end
  | LKey s k => match nth_error (h_heap st) s with Some (StMap m) => mget k m | _ => None end
  end.
Definition with_heap (st : hstate) (h : list storage) : hstate := HState (h_vars st) h.

(** Reading a Variant object; there must be one. *)
Definition load (l : loc) : M cell := fun st =>
  match peek st l with Some c => (Ok c, st) | None => (UB, st) end.
(** Writing one. *)
Definition store (l : loc) (c : cell) : M unit := fun st =>
  match peek st l with
  | None => (UB, st)
  | Some _ =>
      (Ok tt,
       match l with
       | LVar x => HState (lput (h_vars st) x c) (h_heap st)
       | LIdx s i =>
           match nth_error (h_heap st) s with
           | Some (StList cs) => with_heap st (lput (h_heap st) s (StList (lput cs (N.to_nat i) c)))
           | _ => st
           end
       | LKey s k =>
           match nth_error (h_heap st) s with
           | Some (StMap m) => with_heap st (lput (h_heap st) s (StMap (mset k c m)))
           | _ => st
           end
       end)
  end.
(** new StringStorage, ListStorage, MapStorage, Blob. *)
Definition alloc (x : storage) : M nat := fun st =>
  (Ok (List.length (h_heap st)), with_heap st (h_heap st ++ [x])).
(** The storage a cell holds; [put_storage] modifies it in place. *)
Definition get_storage (s : nat) : M storage := fun st =>
  match nth_error (h_heap st) s with Some x => (Ok x, st) | None => (UB, st) end.
Definition put_storage (s : nat) (x : storage) : M unit := fun st =>
  match nth_error (h_heap st) s with
  | Some _ => (Ok tt, with_heap st (lput (h_heap st) s x))
  | None => (UB, st)
  end.
Definition get_list (s : nat) : M (list cell) :=
  let* x := get_storage s in match x with StList l => ret l | _ => fail UB end.
Definition get_map (s : nat) : M (list (bytes * cell)) :=
  let* x := get_storage s in match x with StMap m => ret m | _ => fail UB end.
Definition get_str (s : nat) : M bytes :=
  let* x := get_storage s in match x with StStr b => ret b | _ => fail UB end.
Definition get_blob (s : nat) : M blob :=
  let* x := get_storage s in match x with StBlob b => ret b | _ => fail UB end.

(** ** Assign and Copy *)

(** Assigning a Variant [c] to the object at [l].  For null, bool and numbers VTable::Assign
    (src/Variant.cc:254-255) copies the value; String::Assign (1019-1028), List::Assign
    (1129-1138), Map::Assign (1268-1277) and Blob::Assign (1380-1389) make the target hold
    the same storage. *)
Definition assign (c : cell) (l : loc) : M unit := store l c.

(** Copy of the elements of a list or map. *)
Fixpoint map_m {A B} (f : A -> M B) (l : list A) : M (list B) :=
  match l with
  | [] => ret []
  | x :: t => let* y := f x in let* r := map_m f t in ret (y :: r)
  end.

(** Variant::Copy (src/Variant.cc:2190-2194) and the Copy of each vtable: 588, 699, 828, 887,
    948, 1016, 1121-1127, 1260-1266, 1377-1378.  A cyclic structure recurses without end;
    [fuel] bounds the depth.  The new container is allocated after its elements here, before
    them in the code; the number of a new storage cannot be observed. *)
Fixpoint copy (fuel : nat) (c : cell) : M cell :=
  match fuel with
  | O => fail Fuel
  | S f =>
      match c with
      | CStr s => let* b := get_str s in let* n := alloc (StStr b) in ret (CStr n)
      | CList s =>
          let* l := get_list s in
          let* l' := map_m (copy f) l in
          let* n := alloc (StList l') in ret (CList n)
      | CMap s =>
          let* m := get_map s in
          let* m' := map_m (fun kv => let* x := copy f (snd kv) in ret (fst kv, x)) m in
          let* n := alloc (StMap m') in ret (CMap n)
      | CBlob (Some s) =>
          let* b := get_blob s in
          let* b' := fail (blob_copy b) in
          let* n := alloc (StBlob b') in ret (CBlob (Some n))
      | _ => ret c
      end
  end.

(** ** Lists *)

(** src/Variant.cc:623-631 (Null), 1182-1200 (List), 310-318 (the others): GetIndex and
    GetConstIndex; both versions read the same. *)
Definition get_index (l : loc) (i : N) (checked : bool) : M (option loc) :=
  let* c := load l in
  match c with
  | CList s =>
      let* cs := get_list s in
      if i <? lsize cs then ret (Some (LIdx s i))
      else if checked then throw OutOfRange else ret None
  | CNull => if checked then throw OutOfRange else ret None
  | _ => if checked then throw UnexpectedTypeError else ret None
  end.

(** that->l->list.at(i). *)
Definition list_at (s : nat) (i : N) : M loc :=
  let* cs := get_list s in if i <? lsize cs then ret (LIdx s i) else throw OutOfRange.

(** src/Variant.cc:1202-1207 List::SetIndex; [i + 1] is a 32-bit sum. *)
Definition list_set_index (s : nat) (i : N) (c : cell) : M unit :=
  let* cs := get_list s in
  (if i <? lsize cs then ret tt else put_storage s (StList (lresize cs (wrap32 (i + 1)))));;
  let* l := list_at s i in assign c l.

(** src/Variant.cc:633-636 (Null), 320-321: SetIndex. *)
Definition set_index (l : loc) (i : N) (c : cell) : M unit :=
  let* c0 := load l in
  match c0 with
  | CNull => let* s := alloc (StList []) in store l (CList s);; list_set_index s i c
  | CList s => list_set_index s i c
  | _ => throw UnexpectedTypeError
  end.

(** src/Variant.cc:607-612 (Null), 1148 (List), 292-293: AsList.  The result is the storage. *)
Definition as_list (l : loc) : M nat :=
  let* c0 := load l in
  match c0 with
  | CNull => let* s := alloc (StList []) in store l (CList s);; ret s
  | CList s => ret s
  | _ => throw UnableToConvertError
  end.

(** src/Variant.cc:2062-2065 Append: push_back of a copy-constructed Variant. *)
Definition append (l : loc) (c : cell) : M unit :=
  let* s := as_list l in
  let* cs := get_list s in
  put_storage s (StList (cs ++ [c])).

(** src/Variant.cc:613 (Null), 1160-1168 (List; [i + 1] is a 32-bit sum), 304-305: EraseIndex. *)
Definition erase_index (l : loc) (i : N) : M unit :=
  let* c0 := load l in
  match c0 with
  | CNull => ret tt
  | CList s =>
      let* cs := get_list s in
      let size := wrap32 (lsize cs) in
      if wrap32 (i + 1) <? size then let* e := list_at s i in assign CNull e
      else if i <? size then put_storage s (StList (removelast cs))
      else ret tt
  | _ => throw UnexpectedTypeError
  end.

(** ** Maps *)

(** src/Variant.cc:654-662 (Null), 1307-1327 (Map), 338-346: GetKey and GetConstKey. *)
Definition get_key (l : loc) (k : bytes) (checked : bool) : M (option loc) :=
  let* c := load l in
  match c with
  | CMap s =>
      let* m := get_map s in
      match mget k m with
      | Some _ => ret (Some (LKey s k))
      | None => if checked then throw KeyError else ret None
      end
  | CNull => if checked then throw KeyError else ret None
  | _ => if checked then throw UnexpectedTypeError else ret None
  end.

(** std::map::insert(make_pair(k, c)): nothing happens when the key is there. *)
Definition map_insert (s : nat) (k : bytes) (c : cell) : M unit :=
  let* m := get_map s in
  match mget k m with Some _ => ret tt | None => put_storage s (StMap (mset k c m)) end.

(** src/Variant.cc:1329-1332 Map::SetKey. *)
Definition map_set_key (s : nat) (k : bytes) (c : cell) : M unit :=
  map_insert s k CNull;; assign c (LKey s k).

(** src/Variant.cc:664-667 (Null), 348-349: SetKey. *)
Definition set_key (l : loc) (k : bytes) (c : cell) : M unit :=
  let* c0 := load l in
  match c0 with
  | CNull => let* s := alloc (StMap []) in store l (CMap s);; map_set_key s k c
  | CMap s => map_set_key s k c
  | _ => throw UnexpectedTypeError
  end.

(** src/Variant.cc:638-641 (Null), 1287 (Map), 323-324: AsMap. *)
Definition as_map (l : loc) : M nat :=
  let* c0 := load l in
  match c0 with
  | CNull => let* s := alloc (StMap []) in store l (CMap s);; ret s
  | CMap s => ret s
  | _ => throw UnableToConvertError
  end.

(** src/Variant.cc:644 (Null), 1294 (Map), 332-333: EraseKey. *)
Definition erase_key (l : loc) (k : bytes) : M unit :=
  let* c0 := load l in
  match c0 with
  | CNull => ret tt
  | CMap s => let* m := get_map s in put_storage s (StMap (mdel k m))
  | _ => throw UnexpectedTypeError
  end.

(** ** Path elements and paths *)

(** src/Variant.cc:351-365 GetPathElem. *)
Definition get_elem (l : loc) (e : pelem) (checked : bool) : M (option loc) :=
  match e with PKey k => get_key l k checked | PIdx i => get_index l i checked end.
(** src/Variant.cc:375-381 SetPathElem. *)
Definition set_elem (l : loc) (e : pelem) (c : cell) : M unit :=
  match e with PKey k => set_key l k c | PIdx i => set_index l i c end.
(** src/Variant.cc:456-462 ErasePathElem. *)
Definition erase_elem (l : loc) (e : pelem) : M unit :=
  match e with PKey k => erase_key l k | PIdx i => erase_index l i end.

(** A VariantRef: to an existing object, or a proxy for a path from an existing object that
    may not exist yet (src/Variant.cc Ref and Proxy, include/Variant/VariantInternal.h:40-60).
    A proxy replaces itself by a plain reference when it is resolved; it would resolve to
    the same object again, so this is not represented. *)
Inductive vref := RRef (l : loc) | RProxy (l : loc) (p : path).

(** src/Variant.cc:615-621 (Null), 1170-1180 (List), 307-308: GetRefIndex. *)
Definition list_get_ref (l : loc) (s : nat) (i : N) (def : option cell) : M vref :=
  let* cs := get_list s in
  if i <? lsize cs then ret (RRef (LIdx s i))
  else match def with
       | Some d =>
           put_storage s (StList (lresize cs (wrap32 (i + 1))));;
           let* e := list_at s i in assign d e;; ret (RRef e)
       | None => ret (RProxy l [PIdx i])
       end.
Definition get_ref_index (l : loc) (i : N) (def : option cell) : M vref :=
  let* c0 := load l in
  match c0 with
  | CNull =>
      match def with
      | Some _ => let* s := alloc (StList []) in store l (CList s);; list_get_ref l s i def
      | None => ret (RProxy l [PIdx i])
      end
  | CList s => list_get_ref l s i def
  | _ => throw UnexpectedTypeError
  end.

(** src/Variant.cc:646-652 (Null), 1296-1305 (Map), 335-336: GetRefKey. *)
Definition map_get_ref (l : loc) (s : nat) (k : bytes) (def : option cell) : M vref :=
  let* m := get_map s in
  match mget k m with
  | Some _ => ret (RRef (LKey s k))
  | None =>
      match def with
      | Some d => map_insert s k d;; ret (RRef (LKey s k))
      | None => ret (RProxy l [PKey k])
      end
  end.
Definition get_ref_key (l : loc) (k : bytes) (def : option cell) : M vref :=
  let* c0 := load l in
  match c0 with
  | CNull =>
      match def with
      | Some _ => let* s := alloc (StMap []) in store l (CMap s);; map_get_ref l s k def
      | None => ret (RProxy l [PKey k])
      end
  | CMap s => map_get_ref l s k def
  | _ => throw UnexpectedTypeError
  end.

(** src/Variant.cc:367-373 GetRefPathElem. *)
Definition get_ref_elem (l : loc) (e : pelem) (def : option cell) : M vref :=
  match e with PKey k => get_ref_key l k def | PIdx i => get_ref_index l i def end.

(** src/Variant.cc:383-407 GetPathRef.  After SetPathElem (397) the function calls itself with
    the same path and finds the element; without it the recursion would not end. *)
Fixpoint get_path_ref (p : path) (l : loc) (def : option cell) : M vref :=
  match p with
  | [] => ret (RRef l)
  | e :: p' =>
      let* o := get_elem l e false in
      match o with
      | None =>
          match def with
          | None => ret (RProxy l p)
          | Some _ =>
              match p' with
              | [] => get_ref_elem l e def
              | _ =>
                  set_elem l e CNull;;
                  let* o2 := get_elem l e false in
                  match o2 with Some l' => get_path_ref p' l' def | None => fail Fuel end
              end
          end
      | Some l' => match p' with [] => ret (RRef l') | _ => get_path_ref p' l' def end
      end
  end.

(** src/Variant.cc:409-430 GetPathConst. *)
Fixpoint get_path (p : path) (l : loc) (checked : bool) : M (option loc) :=
  match p with
  | [] => let* _ := load l in ret (Some l)
  | e :: p' =>
      let* o := get_elem l e checked in
      match o with
      | None => if checked then (match e with PKey _ => throw KeyError | PIdx _ => throw OutOfRange end)
                else ret None
      | Some l' => match p' with [] => ret (Some l') | _ => get_path p' l' checked end
      end
  end.

(** src/Variant.cc:432-454 SetPath. *)
Fixpoint set_path (p : path) (l : loc) (c : cell) : M unit :=
  match p with
  | [] => assign c l
  | e :: p' =>
      let* o := get_elem l e false in
      match o with
      | None =>
          match p' with
          | [] => set_elem l e c
          | _ =>
              set_elem l e CNull;;
              let* o2 := get_elem l e false in
              match o2 with Some l' => set_path p' l' c | None => fail Fuel end
          end
      | Some l' => set_path p' l' c
      end
  end.

(** src/Variant.cc:605 (Null), 1065 (String), 1144 (List), 1283 (Map), 287-288: Empty. *)
Definition is_empty (l : loc) : M bool :=
  let* c := load l in
  match c with
  | CNull => ret true
  | CStr s => let* b := get_str s in ret (match b with [] => true | _ => false end)
  | CList s => let* b := get_list s in ret (match b with [] => true | _ => false end)
  | CMap s => let* b := get_map s in ret (match b with [] => true | _ => false end)
  | _ => throw InvalidOperationError
  end.

(** src/Variant.cc:603 (Null), 1063, 1142, 1281, 1400-1401 (Blob; a null BlobPtr is
    dereferenced), 284-285: Size. *)
Definition size_of (l : loc) : M N :=
  let* c := load l in
  match c with
  | CNull => ret 0
  | CStr s => let* b := get_str s in ret (wrap32 (lsize b))
  | CList s => let* b := get_list s in ret (wrap32 (lsize b))
  | CMap s => let* b := get_map s in ret (wrap32 (lsize b))
  | CBlob (Some s) => let* b := get_blob s in ret (total_length b)
  | CBlob None => fail UB
  | _ => throw InvalidOperationError
  end.

(** src/Variant.cc:464-479 ErasePath. *)
Fixpoint erase_path (p : path) (l : loc) (remove_empty : bool) : M unit :=
  match p with
  | [] => ret tt
  | e :: p' =>
      match p' with
      | [] => erase_elem l e
      | _ =>
          let* o := get_elem l e false in
          match o with
          | None => ret tt
          | Some l' =>
              erase_path p' l' remove_empty;;
              if remove_empty then
                let* b := is_empty l' in if b then erase_elem l e else ret tt
              else ret tt
          end
      end
  end.

(** src/Variant.cc:607 (Null), 1067 (String), 1146 (List), 1285 (Map), 290: Clear. *)
Definition clear (l : loc) : M unit :=
  let* c := load l in
  match c with
  | CNull => ret tt
  | CStr s => let* _ := get_str s in put_storage s (StStr [])
  | CList s => let* _ := get_list s in put_storage s (StList [])
  | CMap s => let* _ := get_map s in put_storage s (StMap [])
  | _ => store l CNull
  end.

(** Numbers: src/Variant.cc:763-807, 852-858, 911-919, 972-980; see Numeric.v.  Of a cell that is
    not a number only the type matters. *)
Definition num_view (c : cell) : value :=
  match c with
  | CNull => VNull | CBool b => VBool b | CInt z => VInt z | CUns n => VUns n | CFlt x => VFlt x
  | CStr _ => VStr [] | CList _ => VList [] | CMap _ => VMap [] | CBlob _ => VBlob []
  end.
Definition num_cell (v : value) : cell :=
  match v with VBool b => CBool b | VInt z => CInt z | VUns n => CUns n | VFlt x => CFlt x | _ => CNull end.
Definition num_update (l : loc) (f : value -> res value) : M unit :=
  let* c := load l in let* v := fail (f (num_view c)) in store l (num_cell v).

(** ** VariantRef: what each operation does first with a proxy *)

(** src/Variant.cc:1692-1705 ProxyResolveCheck, 1477-1636 Ref. *)
Definition resolve_check (r : vref) : M (option loc) :=
  match r with RRef l => ret (Some l) | RProxy l p => get_path p l false end.
(** src/Variant.cc:1707-1715 ProxyResolveThrow. *)
Definition resolve_throw (r : vref) : M loc :=
  match r with
  | RRef l => ret l
  | RProxy l p => let* o := get_path p l true in match o with Some l' => ret l' | None => fail UB end
  end.
(** src/Variant.cc:1717-1726 ProxyResolveCreate; a proxy result would make the next call of
    the same function recurse for ever. *)
Definition resolve_create (r : vref) : M loc :=
  match r with
  | RRef l => ret l
  | RProxy l p =>
      let* r' := get_path_ref p l (Some CNull) in
      match r' with RRef l' => ret l' | RProxy _ _ => fail Fuel end
  end.

(** src/Variant.cc:2143-2147 Merge(Variant other): [other] is a local handle, on which
    MapBegin() calls AsMap().  The value of an entry is read when the loop reaches it.  A
    proxy target is created by the first Set, which may add a key to the map being iterated
    over; no later Set does, since the two maps are then the same storage only when every key
    is there already. *)
Fixpoint merge_keys (l : loc) (s : nat) (ks : list bytes) : M unit :=
  match ks with
  | [] => ret tt
  | k :: t => let* c := load (LKey s k) in set_key l k c;; merge_keys l s t
  end.
Definition key_after (k k' : bytes) : bool := match bcmp k k' with Lt => true | _ => false end.
Definition merge (r : vref) (other : cell) : M unit :=
  match other with
  | CNull => ret tt
  | CMap s =>
      let* m := get_map s in
      match mkeys m with
      | [] => ret tt
      | k :: _ =>
          let* c := load (LKey s k) in
          let* l := resolve_create r in
          set_key l k c;;
          let* m' := get_map s in
          merge_keys l s (filter (key_after k) (mkeys m'))
      end
  | _ => throw UnableToConvertError
  end.

(** Variant::At(i), At(s), operator[] without a default, on an object or a reference:
    src/Variant.cc:2039-2040, 2082-2083 with Ref 1558-1559, 1588-1589 and Proxy 1796-1809, 1840-1853. *)
Definition at_elem (r : vref) (e : pelem) : M vref :=
  let* o := resolve_check r in
  match o with
  | Some l => get_ref_elem l e None
  | None => match r with RRef l => ret r | RProxy l p => ret (RProxy l (p ++ [e])) end
  end.
(** At with a default: src/Variant.cc:2042-2043, 2085-2086. *)
Definition at_elem_def (r : vref) (e : pelem) (d : cell) : M vref :=
  let* l := resolve_create r in get_ref_elem l e (Some d).
(** AtPath without a default: src/Variant.cc:2111-2112.  VTable::GetPathRef also runs for a
    Ref or Proxy object, whose GetKey and GetIndex are 1561-1565, 1591-1595 and 1814-1823, 1858-1867;
    for an empty path it makes a reference to what the reference stands for. *)
Definition at_path (r : vref) (p : path) : M vref :=
  match p with
  | [] => ret r
  | e :: p' =>
      let* o := resolve_check r in
      match o with
      | Some l => get_path_ref p l None
      | None => match r with RRef l => ret r | RProxy l q => ret (RProxy l (q ++ p)) end
      end
  end.

(** ** Lookups on an object or reference *)

(** Variant::Contains: src/Variant.cc:2067-2068, 2105-2106 with 298-299, 329-330 (false unless a
    list or map), 1152 (List), 1291-1292 (Map), Ref 1534-1535, 1561-1562, Proxy 1787-1788, 1834-1835. *)
Definition contains (r : vref) (e : pelem) : M bool :=
  let* l := resolve_throw r in
  let* c := load l in
  match c, e with
  | CList s, PIdx i => let* cs := get_list s in ret (i <? lsize cs)
  | CMap s, PKey k => let* m := get_map s in ret (match mget k m with Some _ => true | None => false end)
  | _, _ => ret false
  end.
(** Variant::Get without and with a default: src/Variant.cc:2048-2055, 2091-2098 (GetConstIndex and
    GetConstKey; Proxy 1811-1812, 1855-1856 throws when the proxy stands for nothing). *)
Definition get (r : vref) (e : pelem) : M cell :=
  let* l := resolve_throw r in
  let* o := get_elem l e true in
  match o with Some l' => load l' | None => fail UB end.
Definition get_def (r : vref) (e : pelem) (d : cell) : M cell :=
  let* l := resolve_throw r in
  let* o := get_elem l e false in
  match o with Some l' => load l' | None => ret d end.
(** Variant::HasPath, GetPath without and with a default on a Variant: src/Variant.cc:2120-2127,
    2139-2141. *)
Definition has_path (l : loc) (p : path) : M bool :=
  let* o := get_path p l false in ret (match o with Some _ => true | None => false end).
Definition get_at_path (l : loc) (p : path) : M cell :=
  let* o := get_path p l true in match o with Some l' => load l' | None => fail UB end.
Definition get_at_path_def (l : loc) (p : path) (d : cell) : M cell :=
  let* o := get_path p l false in match o with Some l' => load l' | None => ret d end.
(** Variant::Exists: src/Variant.cc:2208-2210, Ref 1625-1627 and Proxy 1924-1932, for a reference whose
    target is alive. *)
Definition exists_ref (r : vref) : M bool :=
  let* o := resolve_check r in ret (match o with Some _ => true | None => false end).

(** ** Programs *)

(** An object of the program: a variable, followed through a path with AtPath. *)
Record lval := LV { lv_var : nat; lv_path : path }.
Definition eval_lval (v : lval) : M vref := at_path (RRef (LVar (lv_var v))) (lv_path v).

(** An expression of type Variant. *)
Inductive rval :=
| RvNull | RvBool (b : bool) | RvInt (z : Z) | RvUns (n : N) | RvFlt (x : spec_float)
| RvStr (s : bytes) | RvList | RvMap | RvBlob (b : blob) | RvNullBlob   (* new values: DefaultInit and Assign *)
| RvOf (v : lval)                       (* the value of an object: shares storage *)
| RvCopy (fuel : nat) (v : lval).       (* its Copy() *)

(** The Variant a VariantRef is converted to: Ref::Assign 1487-1488, Proxy::Assign 1732-1733. *)
Definition read_lval (v : lval) : M cell :=
  let* r := eval_lval v in let* l := resolve_throw r in load l.
(** Assign of a type or C++ value (src/Variant.cc:2215-2252, DefaultInit 1948-1978) and the above. *)
Definition eval_rval (r : rval) : M cell :=
  match r with
  | RvNull => ret CNull
  | RvBool b => ret (CBool b)
  | RvInt z => ret (CInt z)
  | RvUns n => ret (CUns n)
  | RvFlt x => ret (CFlt x)
  | RvStr s => let* n := alloc (StStr s) in ret (CStr n)
  | RvList => let* n := alloc (StList []) in ret (CList n)
  | RvMap => let* n := alloc (StMap []) in ret (CMap n)
  | RvBlob b => let* n := alloc (StBlob b) in ret (CBlob (Some n))
  | RvNullBlob => ret (CBlob None)
  | RvOf v => read_lval v
  | RvCopy fuel v => let* c := read_lval v in copy fuel c
  end.

(** The operations that can modify something.  A VariantRef argument that is a proxy is
    resolved as in src/Variant.cc:1729-1942. *)
Inductive op :=
| OAssign (d : lval) (r : rval)                      (* d = r *)
| OClear (d : lval)
| OSetElem (d : lval) (e : pelem) (r : rval)         (* d.Set(e, r) *)
| OAppend (d : lval) (r : rval)
| OErase (d : lval) (e : pelem)
| OSetPath (d : lval) (p : path) (r : rval)
| OErasePath (d : lval) (p : path) (remove_empty : bool)
| OMerge (d : lval) (r : rval)
| OAtDef (d : lval) (e : pelem) (r : rval)           (* d.At(e, r) *)
| OAtPathDef (d : lval) (p : path) (r : rval)        (* d.AtPath(p, r) *)
| OAsList (d : lval) | OAsMap (d : lval)
| OIncr (d : lval) | ODecr (d : lval)
| OArith (o : arith) (d : lval) (r : rval).          (* d += r etc. *)

(** The target of an operation that creates what is missing (Assign through Resolve 1909-1912;
    SetIndex 1825, SetKey 1869, AsList 1781, AsMap 1828 of Proxy; VTable::SetPath and GetPathRef
    with a default begin with GetKey or GetIndex of the proxy, and fall back on SetKey, SetIndex,
    GetRefKey or GetRefIndex of the proxy, which create it). *)
Definition target_create (d : lval) : M loc := let* r := eval_lval d in resolve_create r.
(** The target of an operation that requires it to exist (Proxy 1729-1733, 1778, 1793, 1837, 1875-1897). *)
Definition target (d : lval) : M loc := let* r := eval_lval d in resolve_throw r.
(** VTable::ErasePath on a proxy: for one element EraseKey or EraseIndex, which throw when the
    target is missing; for more GetKey or GetIndex unchecked, which report nothing. *)
Definition target_erase (d : lval) (p : path) : M (option loc) :=
  let* r := eval_lval d in
  match p with [] => ret None | [_] => let* l := resolve_throw r in ret (Some l) | _ => resolve_check r end.

Definition exec (o : op) : M unit :=
  match o with
  | OAssign d r => let* c := eval_rval r in let* l := target_create d in assign c l
  | OClear d => let* l := target d in clear l
  | OSetElem d e r => let* c := eval_rval r in let* l := target_create d in set_elem l e c
  | OAppend d r => let* c := eval_rval r in let* l := target_create d in append l c
  | OErase d e => let* l := target d in erase_elem l e
  | OSetPath d p r => let* c := eval_rval r in let* l := target_create d in set_path p l c
  | OErasePath d p b =>
      let* o := target_erase d p in match o with Some l => erase_path p l b | None => ret tt end
  | OMerge d r => let* c := eval_rval r in let* t := eval_lval d in merge t c
  | OAtDef d e r => let* c := eval_rval r in let* l := target_create d in get_ref_elem l e (Some c);; ret tt
  | OAtPathDef d p r =>
      let* c := eval_rval r in
      match p with
      | [] => let* _ := eval_lval d in ret tt
      | _ => let* l := target_create d in get_path_ref p l (Some c);; ret tt
      end
  | OAsList d => let* l := target_create d in as_list l;; ret tt
  | OAsMap d => let* l := target_create d in as_map l;; ret tt
  | OIncr d => let* l := target d in num_update l v_incr
  | ODecr d => let* l := target d in num_update l v_decr
  | OArith o d r =>
      let* c := eval_rval r in let* l := target d in num_update l (fun v => v_arith o v (num_view c))
  end.

(** A sequence of operations, each of which may throw: the exception is caught and the next
    operation runs on the state left behind.  [false] when an operation went wrong in
    another way. *)
Fixpoint execs (os : list op) (st : hstate) : bool * hstate :=
  match os with
  | [] => (true, st)
  | o :: t =>
      match exec o st with
      | (Ok _, st1) | (Throw _, st1) => execs t st1
      | (_, st1) => (false, st1)
      end
  end.
