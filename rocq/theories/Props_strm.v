(* Streams over memory, S3 objects and files. *)
From Verif Require Import Common Model_rec Model_strm Spec_strm Proof_strm.

(* C45. In every history of reads, zero-copy reads, seeks and the like, with arguments and content of less than 2^63 bytes
   together, the stream answers like a cursor over its content. *)
Theorem C45_cursor : forall k content sched ops,
  (N.of_nat (length content) < 2 ^ 63)%N -> Forall (moderate content) ops ->
  history k content ops (mk_cursor 0 false) (a_run ops (opened k content sched)).
Proof. exact C45_cursor_l. Qed.
Print Assumptions C45_cursor.

Example C45_case :
  let content := [1; 2; 3; 4; 5]%N in
  let ops := [S_read 2; S_position; S_seek 9; S_read 1; S_seek 3; S_read_slice 7; S_close; S_size] in
  Forall (moderate content) ops /\
  a_run ops (opened K_memory content []) =
    [Ok (Out_bytes [1; 2]%N); Ok (Out_number 2); Ok Out_unit; Ok (Out_bytes []); Ok Out_unit; Ok (Out_bytes [4; 5]%N); Ok Out_unit; Throw Stream_err] /\
  a_run ops (opened K_s3 content []) =
    [Ok (Out_bytes [1; 2]%N); Ok (Out_number 2); Throw System_err; Ok (Out_bytes [3]%N); Ok Out_unit; Ok (Out_bytes [4; 5]%N); Ok Out_unit; Ok (Out_number 5)] /\
  a_run ops (opened K_file content [1; 1; 1]) =
    [Ok (Out_bytes [1]%N); Ok (Out_number 1); Ok Out_unit; Ok (Out_bytes []); Ok Out_unit; Ok (Out_bytes [4]%N); Ok Out_unit; Throw Stream_err].
Proof. split; [repeat constructor|]. repeat split. Qed.

(* C45. A position of 2^63 or more takes the cursor of a stream over memory before its beginning. *)
Theorem C45_far_seek_refuted : exists content,
  a_run [S_seek (2 ^ 63); S_position; S_read 1] (opened K_memory content []) = [Ok Out_unit; Ok (Out_number (2 ^ 63)); UB].
Proof. exact C45_far_l. Qed.
Print Assumptions C45_far_seek_refuted.

(* C49. The bits of an instance are the complete content of its data store (unless the store is an empty file or S3
   object), whatever the schedule of short reads. *)
Theorem C49_whole_content : forall zero_copy seekable first_block content sched fuel,
  (0 < first_block)%N -> zero_copy = true \/ seekable = false \/ content <> [] -> length content < fuel ->
  load_bits fuel zero_copy seekable first_block content sched = Ok content.
Proof. exact C49_whole_l. Qed.
Print Assumptions C49_whole_content.

Example C49_case :
  load_bits 9 false false 2 [1; 2; 3; 4; 5]%N [1; 4; 1] = Ok [1; 2; 3; 4; 5]%N /\
  load_bits 9 false true 2 [1; 2; 3; 4; 5]%N [3] = Ok [1; 2; 3; 4; 5]%N /\
  load_bits 9 false false 2 [] [] = Ok [].
Proof. repeat split. Qed.

(* C49. Reading an empty file or S3 object never ends. *)
Theorem C49_empty_refuted : exists content sched, forall first_block fuel, load_bits fuel false true first_block content sched = Fuel.
Proof. exact C49_empty_l. Qed.
Print Assumptions C49_empty_refuted.
