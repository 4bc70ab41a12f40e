(* Model of Python programs that give buffers to in-memory stores and look at what they read:
   /repo/src/mlio-py/mlio/core/{py_memory_block.h, memory.cc, stream.cc, data_store.cc},
   /repo/src/mlio/{data_stores/in_memory_store.cc, streams/memory_input_stream.cc},
   /repo/include/mlio/memory/memory_slice.h.
   The paths below are relative to /repo/src. *)
From Verif Require Import Common.
Import List.
Local Open Scope nat_scope.

(* A Python object that owns memory, bytes or bytearray: its content, whether it is a bytes
   object, whether the program has a name for it, how many buffers were taken from it and not
   given back, and how often its memory was moved by changing its size.  CPython frees it when
   there are neither names nor buffers, since a buffer holds a reference. *)
Record owner := mk_owner { w_bytes : list byte; w_fixed : bool; w_named : bool; w_exports : nat; w_moved : nat }.
Definition alive (w : owner) : bool := w_named w || (0 <? w_exports w).

(* mlio-py/mlio/core/py_memory_block.h:24-61 Py_memory_block with its Py_buffer: the owner, the
   place of the memory at the time the buffer was taken, its length, and the reference count. *)
Record block := mk_block { k_owner : nat; k_moved : nat; k_len : nat; k_refs : nat }.

(* The objects of the library.
   in_memory_store.h: chunk_; memory_input_stream.h:73-75: source_ and pos_, nothing when
   closed; memory_slice.h:181-183: block_, beg_ and end_; a memoryview of a slice
   (mlio-py/mlio/core/memory.cc:24-35) holds a reference to the slice object. *)
Inductive kind :=
| K_store (b : nat)
| K_stream (b : option nat) (pos : nat)
| K_slice (b : option nat) (off len : nat)
| K_view (slice : nat).
(* [o_refs] is the reference count of the Python object. *)
Record object := mk_object { o_kind : kind; o_named : bool; o_refs : nat }.

Record state := mk_state { owners : list owner; blocks : list block; objects : list object }.
Definition start : state := mk_state [] [] [].

(* What a Python program can do.  [w] is an owner, [o] an object. *)
Inductive op :=
| New_owner (fixed : bool) (bytes : list byte)
| Del_owner (w : nat)
| Value (w : nat)                              (* bytes(w) *)
| Put (w i : nat) (v : byte)                   (* w[i] = v *)
| Resize (w : nat) (bytes : list byte)         (* a change of the size *)
| New_store (w : nat)                          (* InMemoryStore(w) *)
| Open (o : nat)                               (* o.open_read() *)
| Read (o n : nat)                             (* o.read(n) *)
| Read_into (o w : nat)                        (* o.read(w) *)
| Read_view (o v : nat)                        (* o.read(v), v a memoryview *)
| Seek (o p : nat)
| Close (o : nat)
| View (o : nat)                               (* memoryview(o) *)
| Look (v : nat)                               (* bytes(v) *)
| Set_view (v i : nat) (x : byte)              (* v[i] = x *)
| Del (o : nat).

(* What the program sees. *)
Inductive answer := Done | Bytes (l : list byte) | Number (n : nat) | Error.

Fixpoint upd {A : Type} (i : nat) (a : A) (l : list A) : list A :=
  match l, i with
  | [], _ => []
  | _ :: l, 0 => a :: l
  | x :: l, S i => x :: upd i a l
  end.
(* [l] with the bytes [d] at [i] *)
Definition patch (l : list byte) (i : nat) (d : list byte) : list byte :=
  firstn i l ++ d ++ skipn (i + length d) l.

Definition with_owner (s : state) (i : nat) (w : owner) : state := mk_state (upd i w (owners s)) (blocks s) (objects s).
Definition with_block (s : state) (i : nat) (b : block) : state := mk_state (owners s) (upd i b (blocks s)) (objects s).
Definition with_object (s : state) (i : nat) (o : object) : state := mk_state (owners s) (blocks s) (upd i o (objects s)).
Definition add_object (s : state) (k : kind) : state :=
  mk_state (owners s) (blocks s) (objects s ++ [mk_object k true 1]).

(* The program uses only what it has a name for. *)
Definition named_owner (s : state) (i : nat) : option owner :=
  match nth_error (owners s) i with Some w => if w_named w then Some w else None | None => None end.
Definition named_object (s : state) (i : nat) : option kind :=
  match nth_error (objects s) i with Some o => if o_named o then Some (o_kind o) else None | None => None end.

(* ---- reference counts ---- *)

(* intrusive_ptr.h: another pointer to the block *)
Definition hold (s : state) (b : nat) : res state :=
  match nth_error (blocks s) b with
  | Some k => if k_refs k =? 0 then UB
              else Ok (with_block s b (mk_block (k_owner k) (k_moved k) (k_len k) (S (k_refs k))))
  | None => UB
  end.

(* One pointer less.  With the last one, mlio-py/mlio/core/py_memory_block.cc:20-23 gives the
   buffer back. *)
Definition release (s : state) (b : nat) : res state :=
  match nth_error (blocks s) b with
  | None => UB
  | Some k =>
      match k_refs k with
      | 0 => UB
      | S n =>
          let s := with_block s b (mk_block (k_owner k) (k_moved k) (k_len k) n) in
          match n with
          | S _ => Ok s
          | 0 =>
              match nth_error (owners s) (k_owner k) with
              | None => UB
              | Some w =>
                  match w_exports w with
                  | 0 => UB
                  | S e => Ok (with_owner s (k_owner k) (mk_owner (w_bytes w) (w_fixed w) (w_named w) e (w_moved w)))
                  end
              end
          end
      end
  end.
Definition release_opt (s : state) (b : option nat) : res state :=
  match b with Some b => release s b | None => Ok s end.

(* One reference less to the slice object [i]: with the last one its destructor releases the
   block. *)
Definition unref_slice (s : state) (i : nat) : res state :=
  match nth_error (objects s) i with
  | Some (mk_object (K_slice b off len) named (S n)) =>
      let s := with_object s i (mk_object (K_slice b off len) named n) in
      match n with 0 => release_opt s b | S _ => Ok s end
  | _ => UB
  end.

(* ---- memory ---- *)

(* The memory of a block: undefined if the block was deleted, or if its owner was freed or has
   moved its memory. *)
Definition owner_of (s : state) (b : nat) : res (nat * owner) :=
  match nth_error (blocks s) b with
  | None => UB
  | Some k =>
      if k_refs k =? 0 then UB
      else match nth_error (owners s) (k_owner k) with
           | None => UB
           | Some w => if alive w && (w_moved w =? k_moved k) then Ok (k_owner k, w) else UB
           end
  end.
Definition load (s : state) (b off len : nat) : res (list byte) :=
  let* o := owner_of s b in
  let l := w_bytes (snd o) in
  if off + len <=? length l then Ok (firstn len (skipn off l)) else UB.
Definition store_bytes (s : state) (i : nat) (w : owner) (off : nat) (d : list byte) : res state :=
  if off + length d <=? length (w_bytes w)
  then Ok (with_owner s i (mk_owner (patch (w_bytes w) off d) (w_fixed w) (w_named w) (w_exports w) (w_moved w)))
  else UB.

(* The length of the source of a stream. *)
Definition source_len (s : state) (b : nat) : res nat :=
  match nth_error (blocks s) b with Some k => if k_refs k =? 0 then UB else Ok (k_len k) | None => UB end.

(* streams/memory_input_stream.cc:27-42 read into [room] bytes at [off] of the owner [i]:
   std::copy is undefined if the destination begins inside the source; [strict] says whether
   the compiler makes use of that (otherwise it is a memmove).  Sizes are below 2^63; see
   Model_strm for others. *)
Definition read_to (strict : bool) (s : state) (o b pos i off room : nat) : res (state * answer) :=
  if room =? 0 then Ok (s, Number 0)
  else
    let* n := source_len s b in
    let last := Nat.min (pos + room) n in
    let* src := owner_of s b in
    let* d := load s b pos (last - pos) in
    if strict && (fst src =? i) && (pos <=? off) && (off <? last) then UB
    else
      match nth_error (owners s) i with
      | Some w =>
          let* s := store_bytes s i w off d in
          Ok (with_object s o (mk_object (K_stream (Some b) last) true 1), Number (last - pos))
      | None => UB
      end.

(* ---- the operations ---- *)

Section Steps.
  Context (strict : bool).

  (* mlio-py/mlio/core/py_memory_block.h:26-31 and data_store.cc:67-70 make_in_memory_store: a
     buffer is taken and a block made for it. *)
  Definition do_store (s : state) (i : nat) : res (state * answer) :=
    match named_owner s i with
    | None => Ok (s, Error)
    | Some w =>
        let b := mk_block i (w_moved w) (length (w_bytes w)) 1 in
        let s := with_owner s i (mk_owner (w_bytes w) (w_fixed w) true (S (w_exports w)) (w_moved w)) in
        Ok (add_object (mk_state (owners s) (blocks s ++ [b]) (objects s)) (K_store (length (blocks s))), Done)
    end.

  (* mlio/data_stores/in_memory_store.cc:38-50 open_read: a stream over a copy of the slice.
     Compressed stores are not modelled here. *)
  Definition do_open (s : state) (i : nat) : res (state * answer) :=
    match named_object s i with
    | Some (K_store b) => let* s := hold s b in Ok (add_object s (K_stream (Some b) 0), Done)
    | _ => Ok (s, Error)
    end.

  (* mlio/streams/memory_input_stream.cc:44-57 read; a closed stream throws *)
  Definition do_read (s : state) (i n : nat) : res (state * answer) :=
    match named_object s i with
    | Some (K_stream (Some b) pos) =>
        if n =? 0 then Ok (add_object s (K_slice None 0 0), Done)
        else
          let* m := source_len s b in
          let last := Nat.min (pos + n) m in
          let* s := hold s b in
          let s := with_object s i (mk_object (K_stream (Some b) last) true 1) in
          Ok (add_object s (K_slice (Some b) pos (last - pos)), Done)
    | _ => Ok (s, Error)
    end.

  (* mlio-py/mlio/core/stream.cc:135-142 read_input_stream with py_memory_block.h:66-71: the
     destination must be writable: a bytes object is refused.  The buffer is given back at the
     end. *)
  Definition do_read_into (s : state) (i j : nat) : res (state * answer) :=
    match named_object s i, named_owner s j with
    | Some (K_stream src pos), Some w =>
        if w_fixed w then Ok (s, Error)
        else match src with
             | Some b => read_to strict s i b pos j 0 (length (w_bytes w))
             | None => Ok (s, Error)
             end
    | _, _ => Ok (s, Error)
    end.

  (* The slice of a view. *)
  Definition slice_of (s : state) (v : nat) : res (option nat * nat * nat) :=
    match nth_error (objects s) v with
    | Some (mk_object (K_slice b off len) _ n) => if n =? 0 then UB else Ok (b, off, len)
    | _ => UB
    end.

  (* The same with a memoryview of a slice, which is writable:
     mlio-py/mlio/core/memory.cc:27-34 *)
  Definition do_read_view (s : state) (i v : nat) : res (state * answer) :=
    match named_object s i, named_object s v with
    | Some (K_stream src pos), Some (K_view sl) =>
        match src with
        | None => Ok (s, Error)
        | Some b =>
            let* t := slice_of s sl in
            match t with
            | (None, _, _) => Ok (s, Number 0)
            | (Some k, off, len) =>
                let* d := owner_of s k in read_to strict s i b pos (fst d) off len
            end
        end
    | _, _ => Ok (s, Error)
    end.

  (* mlio/streams/memory_input_stream.cc:59-66 seek *)
  Definition do_seek (s : state) (i p : nat) : res (state * answer) :=
    match named_object s i with
    | Some (K_stream (Some b) _) =>
        let* n := source_len s b in
        Ok (with_object s i (mk_object (K_stream (Some b) (Nat.min p n)) true 1), Done)
    | _ => Ok (s, Error)
    end.

  (* mlio/streams/memory_input_stream.cc:68-73 close *)
  Definition do_close (s : state) (i : nat) : res (state * answer) :=
    match named_object s i with
    | Some (K_stream src pos) =>
        let* s := release_opt (with_object s i (mk_object (K_stream None pos) true 1)) src in
        Ok (s, Done)
    | _ => Ok (s, Error)
    end.

  (* mlio-py/mlio/core/memory.cc:24-35: the buffer of a slice object keeps the object *)
  Definition do_view (s : state) (i : nat) : res (state * answer) :=
    match nth_error (objects s) i with
    | Some (mk_object (K_slice b off len) true n) =>
        let s := with_object s i (mk_object (K_slice b off len) true (S n)) in
        Ok (add_object s (K_view i), Done)
    | _ => Ok (s, Error)
    end.

  (* Reading and writing through a memoryview *)
  Definition do_look (s : state) (v : nat) : res (state * answer) :=
    match named_object s v with
    | Some (K_view sl) =>
        let* t := slice_of s sl in
        match t with
        | (None, _, _) => Ok (s, Bytes [])
        | (Some b, off, len) => let* l := load s b off len in Ok (s, Bytes l)
        end
    | _ => Ok (s, Error)
    end.
  Definition do_set (s : state) (v i : nat) (x : byte) : res (state * answer) :=
    match named_object s v with
    | Some (K_view sl) =>
        let* t := slice_of s sl in
        match t with
        | (None, _, _) => Ok (s, Error)
        | (Some b, off, len) =>
            if i <? len then
              let* o := owner_of s b in
              let* s := store_bytes s (fst o) (snd o) (off + i) [x] in Ok (s, Done)
            else Ok (s, Error)
        end
    | _ => Ok (s, Error)
    end.

  (* del: with the last reference the destructor runs *)
  Definition do_del (s : state) (i : nat) : res (state * answer) :=
    match nth_error (objects s) i with
    | Some (mk_object k true n) =>
        match k with
        | K_store b =>
            let* s := release (with_object s i (mk_object k false 0)) b in Ok (s, Done)
        | K_stream src _ =>
            let* s := release_opt (with_object s i (mk_object k false 0)) src in Ok (s, Done)
        | K_slice _ _ _ =>
            let* s := unref_slice (with_object s i (mk_object k false n)) i in Ok (s, Done)
        | K_view sl =>
            let* s := unref_slice (with_object s i (mk_object k false 0)) sl in Ok (s, Done)
        end
    | _ => Ok (s, Error)
    end.

  (* bytes and bytearray of CPython: a bytearray cannot change its size while buffers of it are
     in use. *)
  Definition do_put (s : state) (i j : nat) (v : byte) : res (state * answer) :=
    match named_owner s i with
    | Some w =>
        if w_fixed w || (length (w_bytes w) <=? j) then Ok (s, Error)
        else let* s := store_bytes s i w j [v] in Ok (s, Done)
    | None => Ok (s, Error)
    end.
  Definition do_resize (s : state) (i : nat) (l : list byte) : res (state * answer) :=
    match named_owner s i with
    | Some w =>
        if w_fixed w || (0 <? w_exports w) then Ok (s, Error)
        else Ok (with_owner s i (mk_owner l false true 0 (S (w_moved w))), Done)
    | None => Ok (s, Error)
    end.

  Definition step (s : state) (a : op) : res (state * answer) :=
    match a with
    | New_owner fixed l =>
        Ok (mk_state (owners s ++ [mk_owner l fixed true 0 0]) (blocks s) (objects s), Done)
    | Del_owner i =>
        match named_owner s i with
        | Some w => Ok (with_owner s i (mk_owner (w_bytes w) (w_fixed w) false (w_exports w) (w_moved w)), Done)
        | None => Ok (s, Error)
        end
    | Value i => match named_owner s i with Some w => Ok (s, Bytes (w_bytes w)) | None => Ok (s, Error) end
    | Put i j v => do_put s i j v
    | Resize i l => do_resize s i l
    | New_store i => do_store s i
    | Open i => do_open s i
    | Read i n => do_read s i n
    | Read_into i j => do_read_into s i j
    | Read_view i v => do_read_view s i v
    | Seek i p => do_seek s i p
    | Close i => do_close s i
    | View i => do_view s i
    | Look v => do_look s v
    | Set_view v i x => do_set s v i x
    | Del i => do_del s i
    end.

  (* A whole program: its answers and the final state. *)
  Fixpoint run (s : state) (p : list op) : res (state * list answer) :=
    match p with
    | [] => Ok (s, [])
    | a :: p =>
        let* r := step s a in
        let* q := run (fst r) p in
        Ok (fst q, snd r :: snd q)
    end.
End Steps.
