(* Local files that change while they are read: C104. *)
From Verif Require Import Common Model_rec Model_strm Spec_strm Model_disk Spec_disk Proof_disk.
From Coq Require Import ZArith Lia.

(* C104. Memory-mapped: if others only append to the file or replace it at its path, the stream and the slices it has given out show
   the file as it was when it was opened, whatever the order of events. *)
Theorem C104_mapped : forall page file l, Forall growing l ->
  run_mapped page file (ms_open file) [] l = expected (opened K_memory file []) [] l.
Proof. intros page file l G. apply mapped_run; auto. exists []. cbn. now rewrite app_nil_r. Qed.
Print Assumptions C104_mapped.

(* C104. Through a descriptor: if the file is not changed, or replaced at its path, this holds too; ... *)
Theorem C104_streamed : forall file sched l, Forall unchanging l ->
  run_streamed (fs_open file sched) [] l = expected (opened K_file file sched) [] l.
Proof. intros file sched l G. apply (streamed_run l (fs_open file sched) [] G). Qed.
Print Assumptions C104_streamed.

(* ... if others append to it, what has been read is the beginning of the file, and when a read of at least one byte finds nothing,
   everything the file had then has been read. *)
Theorem C104_appended : forall file sched l n, Forall growing l -> Forall reading l -> (0 < n)%N ->
  (exists rest, file_after file l = delivered (run_streamed (fs_open file sched) [] l) ++ rest) /\
  (last (run_streamed (fs_open file sched) [] (l ++ [Call (S_read n)])) Crash = Answer (Ok (Out_bytes [])) ->
   delivered (run_streamed (fs_open file sched) [] l) = file_after file l).
Proof.
  intros file sched l n G R N. split.
  - destruct (reading_run l (fs_open file sched) G R eq_refl) as (k & D & _ & _); [cbn; lia|]. cbn [fs_pos fs_open fs_content skipn N.to_nat] in D.
    exists (skipn k (file_after file l)). rewrite D. symmetry. apply firstn_skipn.
  - apply (drained l (fs_open file sched) n G R eq_refl eq_refl N).
Qed.
Print Assumptions C104_appended.

(* C104. Slices of a file that is read through a descriptor keep their bytes whatever is done to the file. *)
Theorem C104_copies : forall file sched l1 l2 k bs,
  last (run_streamed (fs_open file sched) [] (l1 ++ [Look k])) Crash = Bytes bs ->
  last (run_streamed (fs_open file sched) [] (l1 ++ l2 ++ [Look k])) Crash = Bytes bs.
Proof. intros file sched l1 l2 k bs. apply copies_run. Qed.
Print Assumptions C104_copies.

(* C104 fails for memory-mapped files that become shorter: reading what is gone ends the process if a whole page is gone, ... *)
Theorem C104_truncated_refuted : forall page file k, 0 < page -> k + page <= length file -> (N.of_nat (length file) < 2 ^ 63)%N ->
  run_mapped page file (ms_open file) [] [Change (Truncate k); Call (S_read (N.of_nat (length file)))] = [Crash].
Proof. exact truncated_crash. Qed.
Print Assumptions C104_truncated_refuted.

(* ... and otherwise delivers zeros that never were in the file; ... *)
Theorem C104_zeros_refuted : forall page file k, k < length file -> length file <= page -> 0 < k -> (N.of_nat (length file) < 2 ^ 63)%N ->
  run_mapped page file (ms_open file) [] [Change (Truncate k); Call (S_read (N.of_nat (length file)))] =
    [Answer (Ok (Out_bytes (firstn k file ++ repeat 0%N (length file - k))))].
Proof. exact truncated_zeros. Qed.
Print Assumptions C104_zeros_refuted.

(* ... and for those that are overwritten: slices the program has already seen change under it. *)
Theorem C104_overwritten_refuted : forall page file bs, bs <> firstn (length bs) file -> length bs <= length file ->
  (N.of_nat (length file) < 2 ^ 63)%N ->
  exists before after, before <> after /\
  run_mapped page file (ms_open file) [] [Call (S_read_slice (N.of_nat (length file))); Look 0; Change (Overwrite 0 bs); Look 0] =
    [Handle (length file); Bytes before; Bytes after].
Proof. exact overwritten_slice. Qed.
Print Assumptions C104_overwritten_refuted.

Example C104_case :
  run_mapped 4 [1; 2; 3; 4; 5]%N (ms_open [1; 2; 3; 4; 5]%N) []
    [Call (S_read_slice 2); Change (Append [6; 7]%N); Call (S_read 9); Look 0; Call S_close; Change Replace; Look 0; Look 1]
  = [Handle 2; Answer (Ok (Out_bytes [3; 4; 5]%N)); Bytes [1; 2]%N; Answer (Ok Out_unit); Bytes [1; 2]%N; No_slice] /\
  run_streamed (fs_open [1; 2; 3]%N [2; 9]) []
    [Call (S_read 9); Change (Append [6; 7]%N); Call (S_read 9); Call (S_read 9)]
  = [Answer (Ok (Out_bytes [1; 2]%N)); Answer (Ok (Out_bytes [3; 6; 7]%N)); Answer (Ok (Out_bytes []))] /\
  run_streamed (fs_open [1; 2; 3]%N []) [] [Call (S_read_slice 2); Look 0; Change (Overwrite 0 [9]%N); Change (Truncate 0); Look 0; Call (S_read 1)]
  = [Handle 2; Bytes [1; 2]%N; Bytes [1; 2]%N; Answer (Ok (Out_bytes []))] /\
  run_mapped 4 [1; 2; 3; 4; 5]%N (ms_open [1; 2; 3; 4; 5]%N) [] [Change (Truncate 1); Call (S_read 5)] = [Crash] /\
  run_mapped 4 [1; 2; 3]%N (ms_open [1; 2; 3]%N) [] [Change (Truncate 1); Call (S_read 3)] = [Answer (Ok (Out_bytes [1; 0; 0]%N))] /\
  run_mapped 4 [1; 2]%N (ms_open [1; 2]%N) [] [Call (S_read_slice 2); Look 0; Change (Overwrite 0 [9]%N); Look 0]
  = [Handle 2; Bytes [1; 2]%N; Bytes [9; 2]%N].
Proof. vm_compute. repeat split. Qed.
