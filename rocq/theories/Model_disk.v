(* Local files that other programs change while they are read: memory-mapped and through a descriptor. *)
From Verif Require Import Common Model_rec Model_strm.
From Coq Require Import ZArith.

(* What other programs do to the file.  Replace: the path gets another file (rename(2), unlink(2)); the open file stays. *)
Inductive change :=
| Append (bs : list byte)
| Truncate (n : nat)
| Overwrite (at_ : nat) (bs : list byte)
| Replace.
Definition changed (file : list byte) (c : change) : list byte :=
  match c with
  | Append bs => file ++ bs
  | Truncate n => firstn n file
  | Overwrite k bs => firstn k file ++ bs ++ skipn (k + length bs) file
  | Replace => file
  end.

(* What happens: a change, a call of the stream, or the program looks at the k-th memory slice it got from the stream. *)
Inductive act := Change (c : change) | Call (o : sop) | Look (k : nat).

(* What the program sees: the answer of a call, a slice of n bytes, the bytes of a slice, nothing for a slice it does not have, the
   end of the process (SIGBUS). *)
Inductive sight := Answer (r : res sout) | Handle (n : nat) | Bytes (bs : list byte) | No_slice | Crash.

(* ---------------- memory-mapped ---------------- *)

(* src/mlio/memory/file_mapped_memory_block.cc:51-75: the mapping has the size the file had when it was opened.  Its bytes are those
   of the file when they are looked at (Linux; MAP_PRIVATE leaves open whether changes are seen), zeros in the rest of the last page
   of the file, and beyond that page there is nothing. *)
Definition in_pages (page size i : nat) : bool := i / page <? (size + page - 1) / page.
Fixpoint touch (page : nat) (file : list byte) (i n : nat) : option (list byte) :=
  match n with
  | 0 => Some []
  | S n' =>
      match (match nth_error file i with
             | Some b => Some b
             | None => if in_pages page (length file) i then Some 0%N else None
             end), touch page file (S i) n' with
      | Some b, Some bs => Some (b :: bs)
      | _, _ => None
      end
  end.

(* src/mlio/data_stores/file.cc:48-51 with memory_map: Memory_input_stream over the mapping.  [m] is the stream with the content the
   file had when it was opened; of it only lengths and positions are used here. *)
Fixpoint run_mapped (page : nat) (file : list byte) (m : mstream) (slices : list (nat * nat)) (l : list act) : list sight :=
  match l with
  | [] => []
  | Change c :: l' => run_mapped page (changed file c) m slices l'
  | Look k :: l' =>
      match nth_error slices k with
      | None => No_slice :: run_mapped page file m slices l'
      | Some (i, n) =>
          match touch page file i n with
          | Some bs => Bytes bs :: run_mapped page file m slices l'
          | None => [Crash]
          end
      end
  | Call o :: l' =>
      let '(r, a) := a_do o (A_memory m) in
      let m' := match a with A_memory m' => m' | _ => m end in
      let here := Z.to_nat (ms_pos m) in
      match o, r with
      | S_read _, Ok (Out_bytes bs) =>
          match touch page file here (length bs) with
          | Some bs' => Answer (Ok (Out_bytes bs')) :: run_mapped page file m' slices l'
          | None => [Crash]
          end
      | S_read_slice _, Ok (Out_bytes bs) => Handle (length bs) :: run_mapped page file m' (slices ++ [(here, length bs)]) l'
      | _, _ => Answer r :: run_mapped page file m' slices l'
      end
  end.

(* ---------------- through a descriptor ---------------- *)

(* src/mlio/data_stores/file.cc:52-54 without memory_map: File_input_stream; read(2), lseek(2) and fstat(2) see the file as it is.
   src/mlio/streams/input_stream_base.cc:28-35: a slice is a copy. *)
Definition with_file (f : fstream) (file : list byte) : fstream := mk_fs file (fs_pos f) (fs_sched f) (fs_size f) (fs_closed f).
Fixpoint run_streamed (f : fstream) (copies : list (list byte)) (l : list act) : list sight :=
  match l with
  | [] => []
  | Change c :: l' => run_streamed (with_file f (changed (fs_content f) c)) copies l'
  | Look k :: l' => (match nth_error copies k with Some bs => Bytes bs | None => No_slice end) :: run_streamed f copies l'
  | Call o :: l' =>
      let '(r, a) := a_do o (A_file f) in
      let f' := match a with A_file f' => f' | _ => f end in
      match o, r with
      | S_read_slice _, Ok (Out_bytes bs) => Handle (length bs) :: run_streamed f' (copies ++ [bs]) l'
      | _, _ => Answer r :: run_streamed f' copies l'
      end
  end.
