(** Model of the JSON Pointer, Patch and Diff functions of src/Extensions.cc, on Variants with
    shared storage (Heap.v). *)
From Verif Require Import Base CNum Float Value Blob Path Numeric Convert Emit Uri Heap.
Open Scope N_scope.

(** ** Comparing and converting cells *)

(** Variant::Compare on objects with storage: the cases of [vcompare] (src/Variant.cc:669-671,
    723-729, 752-761, 1069-1075, 1209-1215, 1335-1341), and Blob::Compare (1403-1411), where the same
    BlobPtr compares equal.  A cyclic structure compared with another may recurse without end;
    [fuel] bounds the depth. *)
Fixpoint hcompare (fuel : nat) (a b : cell) : M Z :=
  match fuel with
  | O => fail Fuel
  | S f =>
      match a, b with
      | CStr s, CStr t => let* x := get_str s in let* y := get_str t in ret (cmp_sign (bcmp x y))
      | CList s, CList t =>
          let* l := get_list s in
          let* r := get_list t in
          if (List.length l =? List.length r)%nat then
            let* same := (fix go l r :=
              match l, r with
              | x :: l', y :: r' => let* c := hcompare f x y in if (c =? 0)%Z then go l' r' else ret false
              | _, _ => ret true
              end) l r in
            ret (if (same : bool) then 0%Z else 1%Z)
          else ret 1%Z
      | CMap s, CMap t =>
          let* m := get_map s in
          let* r := get_map t in
          if (List.length m =? List.length r)%nat then
            let* same := (fix go m r :=
              match m, r with
              | (k, x) :: m', (k', y) :: r' =>
                  if beqb k k' then let* c := hcompare f x y in if (c =? 0)%Z then go m' r' else ret false
                  else ret false
              | _, _ => ret true
              end) m r in
            ret (if (same : bool) then 0%Z else 1%Z)
          else ret 1%Z
      | CBlob None, CBlob None => ret 0%Z
      | CBlob (Some s), CBlob (Some t) =>
          let* x := get_blob s in
          let* y := get_blob t in
          if Nat.eqb s t then ret 0%Z else fail (blob_compare x y)
      | CStr _, _ | CList _, _ | CMap _, _ | CBlob _, _ => ret 1%Z
      | _, _ => fail (vcompare (num_view a) (num_view b))
      end
  end.
(** More levels than pairs of storages means that the recursion does not end. *)
Definition compare (a b : cell) : M Z := fun st =>
  let n := List.length (h_heap st) in hcompare (2 + n * n) a b st.

(** Variant::AsString; see Convert.v. *)
Definition cell_string (c : cell) : M bytes :=
  match c with CStr s => get_str s | _ => fail (as_string (num_view c)) end.

(** The Variant a reference is converted to (src/Variant.cc:1487-1488, 1732-1733). *)
Definition read_ref (r : vref) : M cell := let* l := resolve_throw r in load l.
(** Assigning to a VariantRef: through Variant::Assign (src/Variant.cc:2212-2213) and VTable::Resolve of
    the target. *)
Definition write_ref (r : vref) (c : cell) : M unit := let* l := resolve_create r in assign c l.
(** The type of what a reference stands for (Ref 1496-1497, Proxy 1750-1751). *)
Definition type_ref (r : vref) : M value := let* c := read_ref r in ret (num_view c).

(** [try { m } catch (const std::exception &)]: every exception the library throws is one. *)
Definition attempt {A} (m : M A) : M (A + exn) := fun st =>
  match m st with
  | (Ok a, st1) => (Ok (inl a), st1)
  | (Throw e, st1) => (Ok (inr e), st1)
  | (UB, st1) => (UB, st1)
  | (Abort, st1) => (Abort, st1)
  | (Fuel, st1) => (Fuel, st1)
  end.
(** [catch (const std::exception &e) { throw std::runtime_error(...); }]. *)
Definition rethrow {A} (m : M A) : M A := fun st =>
  match m st with (Throw _, st1) => (Throw RuntimeError, st1) | r => r end.

(** ** Pointer text *)

(** src/Extensions.cc:281-308 JSONPointerUnescape: an escape that is cut off disappears, an unknown
    one stays. *)
Fixpoint unescape (s : bytes) : bytes :=
  match s with
  | [] => []
  | c :: t =>
      if aeqb c "~" then
        match t with
        | [] => []
        | d :: u =>
            if aeqb d "0" then "~"%char :: unescape u
            else if aeqb d "1" then "/"%char :: unescape u
            else "~"%char :: d :: unescape u
        end
      else c :: unescape t
  end.

(** src/Extensions.cc:332-341 IsIndex.  strtoull(b, &e, 10) skips white space and takes a sign and
    digits: a minus negates modulo 2^64, more than 64 bits give 2^64 - 1.  The text is read up to its
    first NUL. *)
Definition is_index (s : bytes) : option N :=
  let '(neg, t) := take_sign (skip_space (c_str s)) in
  let '(ds, u) := span is_digit t in
  match ds with
  | [] => None
  | _ =>
      match skip_space u with
      | [] =>
          let v := dec_value ds in
          Some (if v <? 2^64 then (if neg then wrap64 (2^64 - v) else v) else 2^64 - 1)
      | _ => None
      end
  end.

(** src/Extensions.cc:362-366, taken along the pointer: the components.  [None] when a pointer that is not
    empty does not begin with a slash.  What follows a component begins with a slash or is empty,
    so the first test can only fail at the start. *)
Definition components (pointer : bytes) : option (list bytes) :=
  match pointer with
  | [] => Some []
  | c :: t => if aeqb c "/" then Some (List.map unescape (split_slash t)) else None
  end.

(** ** JSONPointerOp *)

(** src/Extensions.cc:310-330: the operation, and what the function leaves in [op.path], [op.value],
    [op.old_value] (with [op.replaced]) and [op.success].  [op.guess] is never set. *)
Inductive pop := PAdd (c : cell) | PRemove | PTest (c : cell) | PGet.
Record opres := OpRes { o_ref : vref; o_path : path; o_value : cell; o_old : option cell; o_success : bool }.

(** src/Extensions.cc:345-364: an empty pointer. *)
Definition root_op (r : vref) (op : pop) (acc : path) : M opres :=
  match op with
  | PAdd c =>
      let* ex := exists_ref r in
      let* old := (if ex then let* o := read_ref r in ret (Some o) else ret None) in
      write_ref r c;; ret (OpRes r acc c old true)
  | PRemove => let* v := read_ref r in write_ref r CNull;; ret (OpRes r acc v None true)
  | PTest c => let* v := read_ref r in let* x := compare v c in ret (OpRes r acc c None (x =? 0)%Z)
  | PGet => let* v := read_ref r in ret (OpRes r acc v None true)
  end.

(** std::vector::insert(begin() + i, c): past the end the behaviour is not defined. *)
Definition list_insert (s : nat) (i : N) (c : cell) : M unit :=
  let* cs := get_list s in
  if i <=? lsize cs then put_storage s (StList (firstn (N.to_nat i) cs ++ c :: skipn (N.to_nat i) cs)) else fail UB.

(** src/Extensions.cc:386-415: the last component, in a map. *)
Definition map_op (r : vref) (k : bytes) (op : pop) (acc : path) : M opres :=
  let acc := acc ++ [PKey k] in
  match op with
  | PAdd c =>
      let* ex := contains r (PKey k) in
      let* old := (if ex then let* o := get r (PKey k) in ret (Some o) else ret None) in
      (let* l := resolve_create r in set_key l k c);;
      let* x := at_elem r (PKey k) in ret (OpRes x acc c old true)
  | PRemove =>
      let* x := at_elem r (PKey k) in
      let* v := read_ref x in
      (let* l := resolve_throw r in erase_key l k);;
      let* x := at_elem r (PKey k) in ret (OpRes x acc v None true)
  | PTest c =>
      let* x := at_elem r (PKey k) in
      let* v := read_ref x in let* z := compare v c in ret (OpRes x acc c None (z =? 0)%Z)
  | PGet => let* x := at_elem r (PKey k) in let* v := read_ref x in ret (OpRes x acc v None true)
  end.

(** src/Extensions.cc:430-461: the last component, an index.  The index has 64 bits; Contains, Get, At,
    Erase and PathElement take 32 of them (include/Variant/Variant.h, include/Variant/Path.h:70),
    [ListBegin() + index] takes all.  Removal looks the component up as a key (445). *)
Definition list_op (r : vref) (k : bytes) (i : N) (op : pop) (acc : path) : M opres :=
  let e := PIdx (wrap32 i) in
  let acc := acc ++ [e] in
  match op with
  | PAdd c =>
      let* ex := contains r e in
      let* old := (if ex then let* o := get r e in ret (Some o) else ret None) in
      let* l := resolve_create r in
      let* s := as_list l in
      list_insert s i c;;
      let* x := at_elem r e in ret (OpRes x acc c old true)
  | PRemove =>
      let* x := at_elem r (PKey k) in
      let* v := read_ref x in
      (let* l := resolve_throw r in erase_index l (wrap32 i));;
      let* x := at_elem r e in ret (OpRes x acc v None true)
  | PTest c =>
      let* x := at_elem r e in
      let* v := read_ref x in let* z := compare v c in ret (OpRes x acc c None (z =? 0)%Z)
  | PGet => let* x := at_elem r e in let* v := read_ref x in ret (OpRes x acc v None true)
  end.

(** src/Extensions.cc:419-426: the last component is a dash, in a list. *)
Definition dash_op (r : vref) (op : pop) (acc : path) : M opres :=
  let* l := resolve_throw r in
  let* n := size_of l in
  match op with
  | PAdd c =>
      (let* l := resolve_create r in append l c);;
      let* l := resolve_throw r in
      let* n' := size_of l in
      let* x := at_elem r (PIdx n') in ret (OpRes x (acc ++ [PIdx n]) c None true)
  | _ => throw RuntimeError
  end.

(** src/Extensions.cc:343-472 JSONPointerOp. *)
Fixpoint pointer_op (ks : list bytes) (r : vref) (op : pop) (acc : path) : M opres :=
  match ks with
  | [] => root_op r op acc
  | k :: ks' =>
      let* ex := exists_ref r in
      if ex then
        let* t := type_ref r in
        match t with
        | VMap _ =>
            match ks' with
            | [] => map_op r k op acc
            | _ => let* x := at_elem r (PKey k) in pointer_op ks' x op (acc ++ [PKey k])
            end
        | VList _ =>
            if (match ks' with [] => beqb k (s2b "-") | _ => false end) then dash_op r op acc
            else
              match is_index k with
              | None => throw RuntimeError
              | Some i =>
                  match ks' with
                  | [] => list_op r k i op acc
                  | _ => let* x := at_elem r (PIdx (wrap32 i)) in pointer_op ks' x op (acc ++ [PIdx (wrap32 i)])
                  end
              end
        | _ => throw RuntimeError
        end
      else throw RuntimeError
  end.
(** The call with the whole pointer (src/Extensions.cc:362-366: it must be empty or begin with a slash). *)
Definition do_op (pointer : bytes) (r : vref) (op : pop) : M opres :=
  match components pointer with Some ks => pointer_op ks r op [] | None => throw RuntimeError end.

(** ** The functions of the interface *)

(** src/Extensions.cc:474-486, 488-499, 561-572. *)
Definition pointer_add (pointer : bytes) (r : vref) (c : cell) : M unit :=
  rethrow (do_op pointer r (PAdd c);; ret tt).
Definition pointer_remove (pointer : bytes) (r : vref) : M unit :=
  rethrow (do_op pointer r PRemove;; ret tt).
Definition pointer_lookup (pointer : bytes) (r : vref) : M vref :=
  rethrow (let* o := do_op pointer r PGet in ret (o_ref o)).

(** src/Extensions.cc:501-516 JSONPointerReplace. *)
Definition pointer_replace (pointer : bytes) (r : vref) (c : cell) : M unit :=
  rethrow
    (let* o := do_op pointer r PGet in
     let* ex := exists_ref (o_ref o) in
     if ex then let* l := resolve_create r in set_path (o_path o) l c else throw RuntimeError).

(** src/Extensions.cc:518-539 JSONPointerMove. *)
Definition pointer_move (src dst : bytes) (r : vref) : M unit :=
  rethrow
    (let* o := do_op src r PRemove in
     let* x := attempt (do_op dst r (PAdd (o_value o))) in
     match x with
     | inl _ => ret tt
     | inr e => (let* l := resolve_create r in set_path (o_path o) l (o_value o));; throw e
     end).

(** src/Extensions.cc:541-559 JSONPointerCopy; [fuel] bounds the depth of the copy. *)
Definition pointer_copy (fuel : nat) (src dst : bytes) (r : vref) : M unit :=
  rethrow
    (let* o := do_op src r PGet in
     let* ex := exists_ref (o_ref o) in
     if ex then
       let* v := read_ref (o_ref o) in
       let* c := copy fuel v in
       do_op dst r (PAdd c);; ret tt
     else throw RuntimeError).

(** src/Extensions.cc:574-584 FormJSONPointer: nothing is escaped. *)
Definition form_pointer (p : path) : bytes :=
  List.concat (List.map (fun e => "/"%char :: match e with PIdx i => dec_of_N i | PKey k => k end) p).

(** ** JSON Patch *)

(** src/Extensions.cc:586-592 Patch_t. *)
Inductive undo := UAdd (p : path) (c : cell) | URemove (p : path).

(** src/Extensions.cc:594-624 JSONPatchUndo; the newest entry comes first here. *)
Definition undo_one (r : vref) (u : undo) : M unit :=
  match u with
  | UAdd [] c => write_ref r c
  | UAdd p c =>
      let e := last p (PIdx 0) in
      let* x := at_path r (removelast p) in
      let* t := type_ref x in
      match t with
      | VList _ =>
          (* elem.AsUnsigned() *)
          match e with
          | PIdx i => let* l := resolve_create x in let* s := as_list l in list_insert s i c
          | PKey _ => throw BadPathError
          end
      | _ =>
          (* elem.AsString() *)
          match e with PKey k => let* l := resolve_create x in set_key l k c | PIdx _ => throw BadPathError end
      end
  | URemove p =>
      match p with
      | [] => ret tt
      | [_] => let* l := resolve_throw r in erase_path p l false
      | _ => let* o := resolve_check r in match o with Some l => erase_path p l false | None => ret tt end
      end
  end.
(** The loop of src/Extensions.cc:595-622. *)
Fixpoint undo_all (r : vref) (us : list undo) : M unit :=
  match us with
  | [] => ret tt
  | u :: t => undo_one r u;; undo_all r t
  end.

(** diff.Get(key) and diff.Get(key).AsString(), src/Extensions.cc:628-689. *)
Definition member (d : loc) (k : bytes) : M cell := get (RRef d) (PKey k).
Definition member_text (d : loc) (k : bytes) : M bytes := let* c := member d k in cell_string c.
(** src/Extensions.cc:635-639, 669-673, 682-686: what is noted after an addition. *)
Definition add_undo (o : opres) : undo :=
  match o_old o with Some c => UAdd (o_path o) c | None => URemove (o_path o) end.

(** src/Extensions.cc:627-696 JSONPatchOp.  The result: what is pushed on the undo list, newest first,
    and the value returned, or [None] when an exception leaves the function. *)
Definition patch_body (r : vref) (d : loc) (oper : bytes) : M (list undo * option bool) :=
  if beqb oper (s2b "add") then
    let* p := member_text d (s2b "path") in
    let* c := member d (s2b "value") in
    let* o := do_op p r (PAdd c) in
    ret ([add_undo o], Some (o_success o))
  else if beqb oper (s2b "remove") then
    let* p := member_text d (s2b "path") in
    let* o := do_op p r PRemove in
    ret ([UAdd (o_path o) (o_value o)], Some (o_success o))
  else if beqb oper (s2b "replace") then
    let* p := member_text d (s2b "path") in
    let* o := do_op p r PGet in
    let* ex := exists_ref (o_ref o) in
    if ex then
      let* c := member d (s2b "value") in
      write_ref (o_ref o) c;;
      ret ([UAdd (o_path o) (o_value o)], Some (o_success o))
    else ret ([], Some false)
  else if beqb oper (s2b "move") then
    let* p := member_text d (s2b "from") in
    let* o := do_op p r PRemove in
    let u := UAdd (o_path o) (o_value o) in
    let* x := attempt (let* q := member_text d (s2b "path") in do_op q r (PAdd (o_value o))) in
    match x with
    | inl o2 => ret ([add_undo o2; u], Some (o_success o2))
    | inr _ => ret ([u], None)
    end
  else if beqb oper (s2b "copy") then
    let* p := member_text d (s2b "from") in
    let* o := do_op p r PGet in
    let* q := member_text d (s2b "path") in
    let* o2 := do_op q r (PAdd (o_value o)) in
    ret ([add_undo o2], Some (o_success o2))
  else if beqb oper (s2b "test") then
    let* p := member_text d (s2b "path") in
    let* c := member d (s2b "value") in
    let* o := do_op p r (PTest c) in
    ret ([], Some (o_success o))
  else throw RuntimeError.
(** src/Extensions.cc:627-628 and the handler 690-695: the exception is noted, not passed on, so that the
    undo list is kept. *)
Definition patch_op (r : vref) (d : loc) : M (list undo * option bool) :=
  let* x := attempt (let* oper := member_text d (s2b "op") in patch_body r d oper) in
  match x with inl y => ret y | inr _ => ret ([], None) end.

(** The loop of src/Extensions.cc:704-707: the undo list, and the value of [success] or [None] for an
    exception.  The length of the list is taken when it starts (ListEnd() 704); the entries are read when
    they are reached.  When the document and the patch are the same list, the code's iterators are
    invalidated by a change; that is not represented. *)
Fixpoint patch_loop (r : vref) (s : nat) (i : N) (n : nat) (us : list undo) : M (list undo * option bool) :=
  match n with
  | O => ret (us, Some true)
  | S n' =>
      let* x := patch_op r (LIdx s i) in
      match x with
      | (u, Some true) => patch_loop r s (i + 1) n' (u ++ us)
      | (u, b) => ret (u ++ us, b)
      end
  end.
(** src/Extensions.cc:698-720 JSONPatch: the first component of the result.  Simplified: when an operation
    fails without an exception the undoing (712) is inside the try block, so an exception from it makes the
    handler (717) undo a second time.  The entry that threw is still the last one, so it throws again; the
    model leaves with the exception of the first attempt. *)
Definition json_patch (r : vref) (d : loc) : M bool :=
  let* c := load d in
  let* x := (match c with
             | CList s => let* cs := get_list s in patch_loop r s 0 (List.length cs) []
             | _ => patch_op r d
             end) in
  match snd x with
  | Some true => ret true
  | _ => undo_all r (fst x);; ret false
  end.

(** ** JSON Diff *)

(** src/Extensions.cc:722-787: one entry of the patch, appended to the list [t]. *)
Definition diff_entry (t : nat) (op : bytes) (p : path) (value : option cell) : M unit :=
  let* so := alloc (StStr op) in
  let* sp := alloc (StStr (form_pointer p)) in
  let* sm := alloc (StMap (mset (s2b "path") (CStr sp) (mset (s2b "op") (CStr so) []))) in
  (match value with Some c => map_set_key sm (s2b "value") c | None => ret tt end);;
  let* cs := get_list t in
  put_storage t (StList (cs ++ [CMap sm])).

(** src/Extensions.cc:741: the types are the same. *)
Definition type_eqb (a b : cell) : bool := vtype_eqb (type_of (num_view a)) (type_of (num_view b)).

(** The keys of both maps, as the std::set of src/Extensions.cc:762-769 holds them. *)
Definition key_union (a b : list (bytes * cell)) : list bytes :=
  List.map fst (fold_left (fun m k => mset k tt m) (mkeys a) (fold_left (fun m k => mset k tt m) (mkeys b) [])).

(** src/Extensions.cc:722-781 JSONDiffRef; [fuel] bounds the depth.  The sizes of lists are 32-bit numbers
    (2021), the larger one is the number of steps. *)
Fixpoint diff_ref (fuel : nat) (src dst : vref) (t : nat) (p : path) : M unit :=
  match fuel with
  | O => fail Fuel
  | S f =>
      let* ed := exists_ref dst in
      if negb ed then diff_entry t (s2b "remove") p None
      else
        let* es := exists_ref src in
        if negb es then let* c := read_ref dst in diff_entry t (s2b "add") p (Some c)
        else
          let* a := read_ref src in
          let* b := read_ref dst in
          if type_eqb a b then
            let* z := compare a b in
            if (z =? 0)%Z then ret tt
            else
              match a, b with
              | CList s1, CList s2 =>
                  let* l1 := get_list s1 in
                  let* l2 := get_list s2 in
                  (fix go n i :=
                     match n with
                     | O => ret tt
                     | S n' =>
                         (let* x := at_elem src (PIdx i) in
                          let* y := at_elem dst (PIdx i) in
                          diff_ref f x y t (p ++ [PIdx i]));;
                         go n' (i + 1)
                     end) (N.to_nat (N.max (wrap32 (lsize l1)) (wrap32 (lsize l2)))) 0
              | CMap s1, CMap s2 =>
                  let* m1 := get_map s1 in
                  let* m2 := get_map s2 in
                  (fix go ks :=
                     match ks with
                     | [] => ret tt
                     | k :: ks' =>
                         (let* x := at_elem src (PKey k) in
                          let* y := at_elem dst (PKey k) in
                          diff_ref f x y t (p ++ [PKey k]));;
                         go ks'
                     end) (key_union m1 m2)
              | _, _ => diff_entry t (s2b "replace") p (Some b)
              end
          else diff_entry t (s2b "replace") p (Some b)
  end.
(** src/Extensions.cc:783-788 JSONDiff. *)
Definition json_diff (fuel : nat) (src dst : loc) : M cell :=
  let* t := alloc (StList []) in diff_ref fuel (RRef src) (RRef dst) t [];; ret (CList t).
