(** Model of src/EventBuffer.h and EventBuffer::Event::Fire (src/EventBuffer.cc:16-60):
    recording emitter calls and playing them back.  The random event generators
    (src/EventBuffer.cc:137-280), Event::operator==, Print and Fill are not modelled. *)
From Verif Require Import Base Float Value Emit Blob.
Open Scope N_scope.

(** The kind of a recorded event with its value: EventType_t and the union, s and blob of
    Event (src/EventBuffer.h:59-80, 117-128); the two documents, maps and lists carry no
    value but a length, which is [e_len] below. *)
Inductive ekind :=
| KBeginDoc | KEndDoc | KBeginMap | KEndMap | KBeginList | KEndList
| KNull | KBool (b : bool) | KStr (s : bytes) | KInt (z : Z) | KUns (n : N)
| KFlt (d : spec_float) | KBlob (b : blob).

(** src/EventBuffer.h:82-129 Event.  [e_parent] is the pointer to another event of the
    deque, as the number of that event counted from the creation of the buffer: push_back
    and pop_front of a deque leave the other elements in place.  [e_len] is val.len and
    [e_key] is key; both are only meaningful for a map or list begin. *)
Record event := Event { e_kind : ekind; e_parent : option nat; e_len : N; e_key : bool }.

(** src/EventBuffer.h:250-251: level and the deque; [eb_gone] counts the events popped so far. *)
Record ebuf := EBuf { eb_level : Z; eb_gone : nat; eb_events : list event }.

(** src/EventBuffer.h:150. *)
Definition eb_new : ebuf := EBuf 0 0 [].

(** Reading the event a pointer points to; a popped event no longer exists. *)
Definition eb_deref (b : ebuf) (p : nat) : res event :=
  if Nat.ltb p (eb_gone b) then UB
  else match nth_error (eb_events b) (p - eb_gone b) with Some e => Ok e | None => UB end.

(** Storing through a pointer. *)
Definition eb_store (b : ebuf) (p : nat) (e : event) : ebuf :=
  let i := (p - eb_gone b)%nat in
  EBuf (eb_level b) (eb_gone b) (firstn i (eb_events b) ++ e :: skipn (S i) (eb_events b)).

Definition is_begin (k : ekind) : bool :=
  match k with KBeginMap | KBeginList => true | _ => false end.

(** src/EventBuffer.h:132-135 EventBuffer::Parent with Event::Parent (106-110): the last
    event itself when it opens a map or list, its parent otherwise. *)
Definition eb_parent (b : ebuf) : option nat :=
  match List.rev (eb_events b) with
  | [] => None
  | e :: _ => if is_begin (e_kind e) then Some (eb_gone b + List.length (eb_events b) - 1)%nat
              else e_parent e
  end.

(** src/EventBuffer.h:93-104 Event::Update; val.len is a uintmax_t. *)
Definition ev_update (e : event) : event :=
  match e_kind e with
  | KBeginMap => if e_key e then Event (e_kind e) (e_parent e) (e_len e) false
                 else Event (e_kind e) (e_parent e) (wrap64 (e_len e + 1)) true
  | KBeginList => Event (e_kind e) (e_parent e) (wrap64 (e_len e + 1)) (e_key e)
  | _ => e
  end.

(** src/EventBuffer.h:137-141 ParentUpdate. *)
Definition parent_update (b : ebuf) : res (option nat * ebuf) :=
  match eb_parent b with
  | None => Ok (None, b)
  | Some p => do e <- eb_deref b p; Ok (Some p, eb_store b p (ev_update e))
  end.

(** src/EventBuffer.h:143-147 GrandParent. *)
Definition grand_parent (b : ebuf) : res (option nat) :=
  match eb_parent b with
  | None => Ok None
  | Some p => do e <- eb_deref b p; Ok (e_parent e)
  end.

(** events.push_back(Event(kind, parent)) followed by a change of level. *)
Definition eb_push (b : ebuf) (k : ekind) (p : option nat) (d : Z) : ebuf :=
  EBuf (eb_level b + d) (eb_gone b) (eb_events b ++ [Event k p 0 true]).

(** src/EventBuffer.h:154-191: the emitter interface of the buffer.  The announced length
    is ignored.  A C string is recorded as a std::string. *)
Definition eb_emit (b : ebuf) (e : eev) : res ebuf :=
  let scalar k := do (p, b1) <- parent_update b; Ok (eb_push b1 k p 0) in
  match e with
  | EvBeginDoc => Ok (eb_push b KBeginDoc (eb_parent b) 1)
  | EvEndDoc => do p <- grand_parent b; Ok (eb_push b KEndDoc p (-1))
  | EvBeginMap _ => do (p, b1) <- parent_update b; Ok (eb_push b1 KBeginMap p 1)
  | EvEndMap => do p <- grand_parent b; Ok (eb_push b KEndMap p (-1))
  | EvBeginList _ => do (p, b1) <- parent_update b; Ok (eb_push b1 KBeginList p 1)
  | EvEndList => do p <- grand_parent b; Ok (eb_push b KEndList p (-1))
  | EvNull => scalar KNull
  | EvTrue => scalar (KBool true)
  | EvFalse => scalar (KBool false)
  | EvStr s => scalar (KStr (c_str s))
  | EvInt z => scalar (KInt z)
  | EvUns n => scalar (KUns n)
  | EvFlt d => scalar (KFlt d)
  | EvBlob x => scalar (KBlob x)
  end.

Fixpoint eb_emits (b : ebuf) (es : list eev) : res ebuf :=
  match es with [] => Ok b | e :: t => do b1 <- eb_emit b e; eb_emits b1 t end.

(** uintmax_t to int, as in [a->BeginMap(that, val.len, 0, 0)] (src/EventBuffer.cc:25, 31). *)
Definition int_of_u64 (n : N) : Z := (((Z.of_N n + 2^31) mod 2^32) - 2^31)%Z.

(** src/EventBuffer.cc:16-60 Event::Fire into EmitterParserActions (src/EventBuffer.h:20-51):
    the call made on the emitter. *)
Definition ev_fire (e : event) : res eev :=
  match e_kind e with
  | KBeginDoc => Ok EvBeginDoc
  | KEndDoc => Ok EvEndDoc
  | KBeginMap => Ok (EvBeginMap (int_of_u64 (e_len e)))
  | KEndMap => Ok EvEndMap
  | KBeginList => Ok (EvBeginList (int_of_u64 (e_len e)))
  | KEndList => Ok EvEndList
  | KNull => Ok EvNull
  | KBool b => Ok (if b then EvTrue else EvFalse)
  | KStr s => Ok (EvStr (c_str s))
  | KInt z => Ok (EvInt z)
  | KUns n => Ok (EvUns n)
  | KFlt d => Ok (EvFlt d)
  | KBlob x => do y <- blob_copy x; Ok (EvBlob y)
  end.

(** src/EventBuffer.h:204-209, 221-228 Playback and Run with the emitter's actions on the
    stack (they never pop themselves): every event is fired, then popped.  The result is
    the list of calls made on the emitter. *)
Fixpoint ev_fires (es : list event) : res (list eev) :=
  match es with
  | [] => Ok []
  | e :: t => do x <- ev_fire e; do xs <- ev_fires t; Ok (x :: xs)
  end.

Definition eb_playback (b : ebuf) : res (list eev * ebuf) :=
  do xs <- ev_fires (eb_events b);
  Ok (xs, EBuf (eb_level b) (eb_gone b + List.length (eb_events b)) []).
