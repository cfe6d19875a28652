(** Model of src/Blob.cc: a blob is its list of buffers (src/Blob.cc:75-78).
    Memory ownership (free functions) is not modelled; buffers are assumed not to
    change under the blob. *)
From Verif Require Import Base.
Open Scope N_scope.

Notation blob := (list bytes).

(** [memcmp] on unsigned bytes; only the sign of the result is specified by C,
    the model returns -1, 0 or 1. *)
Fixpoint memcmp (a b : bytes) : Z :=
  match a, b with
  | x :: a', y :: b' =>
    match N.compare (bval x) (bval y) with Lt => -1 | Gt => 1 | Eq => memcmp a' b' end%Z
  | _, _ => 0%Z
  end.

(** src/Blob.cc:104-118 the loop of Compare.  [i], [j] are buffer numbers,
    [ao], [bo] offsets in them.  GetLength/GetPtr on an existing buffer
    (include/Variant/Blob.h:43-45); buffers shorter than 2^32 bytes. *)
Fixpoint cmp_loop (fuel : nat) (a b : blob) (i j ao bo : nat) : res Z :=
  match fuel with
  | O => Fuel
  | S f =>
    match nth_error a i, nth_error b j with
    | Some x, Some y =>
      let len := Nat.min (List.length x - ao) (List.length y - bo) in
      let r := memcmp (firstn len (skipn ao x)) (firstn len (skipn bo y)) in
      if negb (r =? 0)%Z then Ok r else
      let ao := (ao + len)%nat in
      let '(i, ao) := if Nat.leb (List.length x) ao then (S i, O) else (i, ao) in
      let bo := (bo + len)%nat in
      let '(j, bo) := if Nat.leb (List.length y) bo then (S j, O) else (j, bo) in
      cmp_loop f a b i j ao bo
    | _, _ => Ok 0%Z
    end
  end.

(** src/Blob.cc:100-120 Blob::Compare. *)
Definition blob_compare (a b : blob) : res Z :=
  cmp_loop (S (List.length a + List.length b)) a b 0 0 0 0.

(** src/Blob.cc:92-98 Blob::GetTotalLength (32-bit sum). *)
Definition total_length (a : blob) : N :=
  fold_left (fun n b => wrap32 (n + N.of_nat (List.length b))) a 0.

(** src/Blob.cc:33-52 Blob::CreateCopy(iov, iov_len): one new buffer with all the
    bytes.  The allocation has the 32-bit length; copying more than that is a heap
    overflow. *)
Definition create_copy (a : blob) : res blob :=
  if N.of_nat (List.length (List.concat a)) <=? total_length a then Ok [List.concat a] else UB.

(** src/Blob.cc:88-90 Blob::Copy: [&iov[0]] of an empty vector is undefined. *)
Definition blob_copy (a : blob) : res blob :=
  match a with [] => UB | _ => create_copy a end.
