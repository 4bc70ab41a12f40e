(* The record readers and the memory blocks they use: which block the chunk reader fills, who refers to it, and what
   becomes of the records the caller still holds.  The bytes are those of Model_rec. *)
From Verif Require Import Common Model_rec.

(* include/mlio/memory/memory_block.h: a block in memory.  Resizing may move the block (heap_memory_block.cc:57-69
   uses realloc); [k_gen] counts the moves, so that pointers into the old memory can be told apart. *)
Record block := mk_block { k_bytes : list byte; k_gen : nat }.

(* include/mlio/memory/memory_slice.h:33-181: a reference to a block together with two pointers into it. *)
Record slice := mk_slice { l_block : nat; l_gen : nat; l_off : nat; l_len : nat }.

(* The bytes a slice denotes.  Undefined if its pointers are not into the block as it is now. *)
Definition slice_bytes (heap : list block) (l : slice) : res (list byte) :=
  match nth_error heap (l_block l) with
  | Some b =>
      if Nat.eqb (k_gen b) (l_gen l) && Nat.leb (l_off l + l_len l) (length (k_bytes b))
      then Ok (firstn (l_len l) (skipn (l_off l) (k_bytes b)))
      else UB
  | None => UB
  end.

Definition set_block (heap : list block) (i : nat) (b : block) : list block :=
  firstn i heap ++ b :: skipn (S i) heap.

(* detail/default_chunk_reader.h:53-56 (chunk_, next_chunk_size_, eof_, stream_), stream_record_reader.h (chunk_, None if it
   does not refer to a block) and the records the caller holds.  The first component of a held record is the
   record as it was when it was returned; the program has only the second. *)
Record mem := mk_mem {
  m_heap : list block;
  m_chunk : option nat;
  m_next : N;
  m_eof : bool;
  m_stream : stream;
  m_slice : option slice;
  m_held : list (rec * slice) }.

(* include/mlio/intrusive_ref_counter.h:48-65: the reference count of a block is the number of references to it. *)
Definition use_count (m : mem) (i : nat) : nat :=
  (match m_chunk m with Some j => if Nat.eqb i j then 1 else 0 | None => 0 end) +
  (match m_slice m with Some l => if Nat.eqb i (l_block l) then 1 else 0 | None => 0 end) +
  length (filter (fun h => Nat.eqb i (l_block (snd h))) (m_held m)).

Definition chunk_bytes (m : mem) : res (list byte) :=
  match m_slice m with Some l => slice_bytes (m_heap m) l | None => Ok [] end.

Section Blocks.
  (* What new memory contains, and whether blocks can be resized (Memory_block::resizable). *)
  Variable junk : byte.
  Variable resizable : bool.

  (* detail/default_chunk_reader.cc:53-55: std::copy of the leftover to the beginning of the block.  It is undefined if
     the destination lies in the source range. *)
  Definition move_front (heap : list block) (i : nat) (b : block) (l : option slice) (leftover : list byte) : res (list block) :=
    match leftover with
    | [] => Ok heap
    | _ =>
        let overlap := match l with Some l => Nat.eqb (l_block l) i && Nat.eqb (l_off l) 0 | None => false end in
        if overlap || Nat.ltb (length (k_bytes b)) (length leftover) then UB
        else Ok (set_block heap i (mk_block (leftover ++ skipn (length leftover) (k_bytes b)) (k_gen b)))
    end.

  (* detail/default_chunk_reader.cc:35-59: whether the block is reused, the size of the next chunk, the memory. *)
  Definition plan (m : mem) (leftover : list byte) : res (option nat * N * list block) :=
    match m_chunk m with
    | None => Ok (None, m_next m, m_heap m)
    | Some i =>
        match nth_error (m_heap m) i with
        | None => UB
        | Some b =>
            let size := N.of_nat (length (k_bytes b)) in
            if (size =? N.of_nat (length leftover))%N then
              Ok (Some i, (if (size =? m_next m)%N then (2 * m_next m)%N else m_next m), m_heap m)
            else if Nat.leb (use_count m i) 2 then
              let* heap := move_front (m_heap m) i b (m_slice m) leftover in
              Ok (Some i, m_next m, heap)
            else Ok (None, m_next m, m_heap m)
        end
    end.

  (* memory/util.cc:27-45 resize_memory_block: a resizable block is resized in place (but may move), otherwise a new
     one is allocated and the content copied. *)
  Definition resize_block (heap : list block) (i : nat) (b : block) (size : N) : nat * list block :=
    let n := N.to_nat size in
    let bytes := firstn n (k_bytes b) ++ repeat junk (n - length (k_bytes b)) in
    if resizable then (i, set_block heap i (mk_block bytes (S (k_gen b))))
    else (length heap, heap ++ [mk_block bytes 0]).

  (* detail/default_chunk_reader.cc:61-72: the block to fill; it starts with the leftover. *)
  Definition take_block (p : option nat * N * list block) (leftover : list byte) : res (nat * list block) :=
    let '(reuse, next, heap) := p in
    match reuse with
    | Some i =>
        match nth_error heap i with
        | None => UB
        | Some b => if (N.of_nat (length (k_bytes b)) =? next)%N then Ok (i, heap) else Ok (resize_block heap i b next)
        end
    | None =>
        let n := N.to_nat next in
        if Nat.ltb n (length leftover) then UB
        else Ok (length heap, heap ++ [mk_block (leftover ++ repeat junk (n - length leftover)) 0])
    end.

  (* detail/default_chunk_reader.cc:29-95 read_chunk, called with the bytes of the record reader's chunk_
     (stream_record_reader.cc:55); the result is the new chunk_. *)
  Definition read_chunk (m : mem) : res mem :=
    if m_eof m then Ok (mk_mem (m_heap m) (m_chunk m) (m_next m) true (m_stream m) None (m_held m))
    else
      let* leftover := chunk_bytes m in
      let* p := plan m leftover in
      let* (i, heap) := take_block p leftover in
      match nth_error heap i with
      | None => UB
      | Some b =>
          let ll := length leftover in
          if Nat.ltb (length (k_bytes b)) ll then UB
          else
            let* r := fill (length (s_rest (m_stream m)) + 2) (m_stream m) (N.of_nat (length (k_bytes b) - ll)) (firstn ll (k_bytes b)) in
            let '(bs, s, eof) := r in
            let heap' := set_block heap i (mk_block (bs ++ skipn (length bs) (k_bytes b)) (k_gen b)) in
            Ok (mk_mem heap' (if eof then None else Some i) (snd (fst p)) eof s
                  (Some (mk_slice i (k_gen b) 0 (length bs))) (m_held m))
      end.

  (* Where in the chunk the payload of the next record lies: the start of the subslice the decoder makes, given the
     chunk and ignore_leftover.  The decoders of Model_rec give the payload's bytes only, so that its place is a
     parameter. *)
  Variable locate : list byte -> bool -> nat.
  Variable D : decoder.

  (* chunk.subslice(n): the record reader's chunk_ after a decode that leaves [rest] of [chunk].  At the end of the
     stream a decoder may leave an empty slice without block (detail/text_line.cc:100, csv_record_reader.cc:235). *)
  Definition advance (m : mem) (chunk rest : list byte) : option slice :=
    match rest, m_eof m with
    | [], true => None
    | _, _ => option_map (fun l => mk_slice (l_block l) (l_gen l) (l_off l + (length chunk - length rest)) (length rest)) (m_slice m)
    end.

  (* stream_record_reader.cc:45-62 read_record_core.  The first component is the outcome of the call, an exception
     included; the memory is the one it leaves behind. *)
  Fixpoint mread_core (fuel : nat) (m : mem) : res (res (option rec) * mem) :=
    match fuel with
    | O => Fuel
    | S fuel' =>
        let* chunk := chunk_bytes m in
        match D chunk (negb (m_eof m)) with
        | Ok (record, rest, hint) =>
            let next := match hint with Some h => double_until (N.size_nat h) (m_next m) h | None => m_next m end in
            let m1 := mk_mem (m_heap m) (m_chunk m) next (m_eof m) (m_stream m) (advance m chunk rest) (m_held m) in
            match record with
            | Some r =>
                match m_slice m with
                | None => UB
                | Some l =>
                    let at_ := locate chunk (negb (m_eof m)) in
                    let h := mk_slice (l_block l) (l_gen l) (l_off l + at_) (length (payload r)) in
                    if Nat.leb (at_ + length (payload r)) (length chunk)
                    then Ok (Ok (Some r), mk_mem (m_heap m1) (m_chunk m1) (m_next m1) (m_eof m1) (m_stream m1) (m_slice m1) ((r, h) :: m_held m1))
                    else Ok (Throw Invalid_argument, m1)
                end
            | None =>
                let* m2 := read_chunk m1 in
                let* chunk' := chunk_bytes m2 in
                match chunk' with
                | [] => Ok (Ok None, m2)
                | _ => mread_core fuel' m2
                end
            end
        | Throw e => Ok (Throw e, m)
        | UB => UB
        | Fuel => Fuel
        end
    end.
  Definition mread (m : mem) : res (res (option rec) * mem) :=
    mread_core (length (s_rest (m_stream m)) + 3) m.

  (* What the caller does: read a record, copy or drop one of the records it holds (counted from the latest). *)
  Inductive op := Op_read | Op_copy (i : nat) | Op_drop (i : nat).
  Definition hold (m : mem) (held : list (rec * slice)) : mem :=
    mk_mem (m_heap m) (m_chunk m) (m_next m) (m_eof m) (m_stream m) (m_slice m) held.
  Definition step (o : op) (m : mem) : res (list (res (option rec)) * mem) :=
    match o with
    | Op_read => let* (r, m') := mread m in Ok ([r], m')
    | Op_copy i => Ok ([], match nth_error (m_held m) i with Some h => hold m (h :: m_held m) | None => m end)
    | Op_drop i => Ok ([], hold m (firstn i (m_held m) ++ skipn (S i) (m_held m)))
    end.
  (* The outcomes of the reads, and the memory in the end. *)
  Fixpoint run (ops : list op) (m : mem) : res (list (res (option rec)) * mem) :=
    match ops with
    | [] => Ok ([], m)
    | o :: rest =>
        let* (x, m1) := step o m in
        let* (y, m2) := run rest m1 in
        Ok (x ++ y, m2)
    end.
End Blocks.

(* A new record reader on a stream that is read in chunks (detail/chunk_reader.cc:47); [size] is the size of the first chunk
   (default_chunk_reader.h:54). *)
Definition new_mem (content : list byte) (sched : list nat) (size : N) : mem :=
  mk_mem [] None size false (mk_stream content sched) None [].
