(** Model of src/Extensions.cc:40-279: flattening and expanding paths, recursive diff and update.

    Programs on the heap of Heap.v.  The loops over a list or map read its size or keys once, at
    the start; the code asks again in each round, which makes a difference only when the object
    that is written is a part of the one that is iterated over. *)
From Verif Require Import Base CNum Float Value Blob Path Numeric Heap Pointer.
Open Scope N_scope.

(** A loop without result. *)
Fixpoint each {A} (f : A -> M unit) (l : list A) : M unit :=
  match l with
  | [] => ret tt
  | x :: t => f x;; each f t
  end.

(** ** Flattening *)

(** src/Extensions.cc:57-107: the parameters, after ExtensionParams has checked them and put in what
    is missing; [ep_list], the listDelimiter, is only used by FlattenPathToStrStrMap.  (Simplified:
    the Variant holding them is read once, not at each use.) *)
Record ext_params := EP {
  ep_nosimple : bool;     (* noSimpleLists *)
  ep_first : bytes;       (* pathPrefix *)
  ep_delim : bytes;       (* pathDelimiter *)
  ep_open : bytes;        (* indexPrefix *)
  ep_close : bytes        (* indexSuffix *)
}.
(** src/Extensions.cc:66-101: what ExtensionParams accepts. *)
Definition params_ok (prm : ext_params) : Prop :=
  (List.length (ep_first prm) <= 1)%nat /\ List.length (ep_delim prm) = 1%nat /\ List.length (ep_open prm) = 1%nat /\
  (List.length (ep_close prm) <= 1)%nat.
(** src/Extensions.cc:51-55: and what it puts in. *)
Definition default_params : ext_params := EP true [] (s2b "/") (s2b "[") (s2b "]").

(** src/Extensions.cc:42-49 SimpleList, of a list. *)
Definition simple_list (cs : list cell) : bool :=
  forallb (fun c => match c with CList _ | CMap _ => false | _ => true end) cs.

(** src/Extensions.cc:130-134, 162-166: [flat[prefix] = var.Copy()] or, when there is no prefix yet,
    [flat = var.Copy()].  What is copied is a list without containers or not a container at all, so
    two levels are enough. *)
Definition flatten_leaf (flat : vref) (c : cell) (prefix : bytes) : M unit :=
  let* x := copy 2 c in
  match prefix with
  | [] => write_ref flat x
  | _ => let* r := at_elem flat (PKey prefix) in write_ref r x
  end.
(** src/Extensions.cc:137-143 and 149-156: the prefix for an element. *)
Definition elem_prefix (prm : ext_params) (prefix : bytes) (e : pelem) : bytes :=
  match e with
  | PIdx i => prefix ++ ep_open prm ++ dec_of_N i ++ ep_close prm
  | PKey k => (match prefix with [] => ep_first prm | _ => prefix ++ ep_delim prm end) ++ k
  end.
(** src/Extensions.cc:121-168 FlattenPathTo; [fuel] bounds the depth. *)
Fixpoint flatten_to (fuel : nat) (prm : ext_params) (flat : vref) (var : loc) (prefix : bytes) : M unit :=
  match fuel with
  | O => fail Fuel
  | S f =>
      let* c := load var in
      match c with
      | CList s =>
          let* cs := get_list s in
          if negb (ep_nosimple prm) && simple_list cs then flatten_leaf flat c prefix
          else each (fun i => flatten_to f prm flat (LIdx s i) (elem_prefix prm prefix (PIdx i)))
                 (List.map N.of_nat (seq 0 (N.to_nat (wrap32 (lsize cs)))))
      | CMap s =>
          let* m := get_map s in
          each (fun k => flatten_to f prm flat (LKey s k) (elem_prefix prm prefix (PKey k))) (mkeys m)
      | _ => flatten_leaf flat c prefix
      end
  end.
(** src/Extensions.cc:109-113 FlattenPath, with the variable [i] for the local [flat]. *)
Definition flatten_path (fuel : nat) (prm : ext_params) (var : loc) (i : nat) : M unit :=
  store (LVar i) CNull;; flatten_to fuel prm (RRef (LVar i)) var [].

(** ** Expanding *)

(** src/Extensions.cc:180-184: the delimiter becomes a slash. *)
Definition to_slash (d : ascii) (t : bytes) : bytes := List.map (fun c => if aeqb c d then "/"%char else c) t.
(** src/Extensions.cc:173-187 ExpandPathTo. *)
Definition expand_to (prm : ext_params) (expand : vref) (var : loc) : M unit :=
  let* c := load var in
  match c with
  | CMap s =>
      let* m := get_map s in
      each (fun k =>
        match ep_delim prm with
        | [d] =>
            let* p := fail (parse_path (to_slash d k)) in
            let* x := load (LKey s k) in
            let* l := resolve_create expand in
            set_path p l x
        | _ => throw RuntimeError
        end) (mkeys m)
  | _ => write_ref expand c
  end.
(** src/Extensions.cc:115-119 ExpandPath, with the variable [j] for the local [expand]. *)
Definition expand_path (prm : ext_params) (var : loc) (j : nat) : M unit :=
  store (LVar j) CNull;; expand_to prm (RRef (LVar j)) var.

(** ** Recursive diff and update *)

(** src/Extensions.cc:247-248: a null or an empty map. *)
Definition nothing_left (c : cell) : M bool :=
  match c with
  | CNull => ret true
  | CMap s => let* m := get_map s in ret (match m with [] => true | _ => false end)
  | _ => ret false
  end.
(** src/Extensions.cc:221-262 RDiff with three arguments; [fuel] bounds the depth. *)
Fixpoint rdiff (fuel : nat) (diff : vref) (base compared : loc) : M unit :=
  match fuel with
  | O => fail Fuel
  | S f =>
      let* c := load compared in
      let* b := load base in
      match c with
      | CMap s =>
          match b with
          | CMap sb =>
              let* m := get_map s in
              each (fun k =>
                let* has := contains (RRef base) (PKey k) in
                if negb has then
                  let* y := load (LKey s k) in
                  let* x := copy f y in
                  let* r := at_elem diff (PKey k) in
                  write_ref r x
                else
                  let* x := load (LKey sb k) in
                  let* y := load (LKey s k) in
                  let* z := compare x y in
                  (if (z =? 0)%Z then ret tt
                   else
                     let* n := alloc (StMap []) in
                     let* r := at_elem diff (PKey k) in
                     write_ref r (CMap n);;
                     let* r := at_elem diff (PKey k) in
                     rdiff f r (LKey sb k) (LKey s k));;
                  let* has := contains diff (PKey k) in
                  if has then
                    let* r := at_elem diff (PKey k) in
                    let* d := read_ref r in
                    let* e := nothing_left d in
                    if e then let* l := resolve_throw diff in erase_elem l (PKey k) else ret tt
                  else ret tt) (mkeys m)
          | _ => let* x := copy fuel c in write_ref diff x
          end
      | _ =>
          let* z := compare b c in
          if (z =? 0)%Z then ret tt else let* x := copy fuel c in write_ref diff x
      end
  end.
(** src/Extensions.cc:215-219 RDiff with two arguments, with the variable [i] for the local [diff]. *)
Definition rdiff_new (fuel : nat) (base compared : loc) (i : nat) : M unit :=
  (let* n := alloc (StMap []) in store (LVar i) (CMap n));;
  rdiff fuel (RRef (LVar i)) base compared.

(** src/Extensions.cc:264-279 RUpdate; [fuel] bounds the depth. *)
Fixpoint rupdate (fuel : nat) (base : vref) (update : loc) : M unit :=
  match fuel with
  | O => fail Fuel
  | S f =>
      let* c := load update in
      match c with
      | CNull => ret tt
      | CMap s =>
          let* ex := exists_ref base in
          let* go := (if ex then let* b := read_ref base in ret (match b with CMap _ => true | _ => false end) else ret true) in
          if go then
            let* m := get_map s in
            each (fun k =>
              let* n := alloc (StMap []) in
              let* r := at_elem_def base (PKey k) (CMap n) in
              rupdate f r (LKey s k)) (mkeys m)
          else let* x := copy fuel c in write_ref base x
      | _ => let* x := copy fuel c in write_ref base x
      end
  end.
