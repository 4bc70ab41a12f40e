(* The streams over memory, S3 objects and files, and reading a whole stream into one block. *)
From Verif Require Import Common Model_rec.
From Coq Require Import ZArith.

Local Open Scope Z_scope.

(* include/mlio/util/cast.h:52 as_ssize: static_cast from std::size_t to std::ptrdiff_t. *)
Definition as_ssize (n : N) : Z := if (n <? 2 ^ 63)%N then Z.of_N n else Z.of_N n - 2 ^ 64.

(* ---------------- Memory_input_stream ---------------- *)

(* include/mlio/streams/memory_input_stream.h:73-75.  Pointers into the source are offsets from its beginning. *)
Record mstream := mk_mstream { ms_source : list byte; ms_pos : Z; ms_closed : bool }.
Definition ms_open (content : list byte) : mstream := mk_mstream content 0 false.

(* streams/memory_input_stream.cc:89-92 advance_position.  Adding to a pointer is taken as addition of integers. *)
Definition ms_advance (m : mstream) (d : N) : Z :=
  Z.min (ms_pos m + as_ssize d) (Z.of_nat (length (ms_source m))).

(* streams/memory_input_stream.cc:27-42 read into a destination of n bytes.  std::copy of a range that is not in the
   source is undefined. *)
Definition ms_read (m : mstream) (n : N) : res (list byte * mstream) :=
  if ms_closed m then Throw Stream_err
  else if (n =? 0)%N then Ok ([], m)
  else
    let pos := ms_advance m n in
    if (ms_pos m <? 0) || (pos <? ms_pos m) then UB
    else Ok (firstn (Z.to_nat (pos - ms_pos m)) (skipn (Z.to_nat (ms_pos m)) (ms_source m)),
             mk_mstream (ms_source m) pos false).

(* streams/memory_input_stream.cc:44-57 zero-copy read; memory_slice.cc:23-32 validate_range. *)
Definition ms_read_slice (m : mstream) (n : N) : res (list byte * mstream) :=
  if ms_closed m then Throw Stream_err
  else if (n =? 0)%N then Ok ([], m)
  else
    let pos := ms_advance m n in
    if (pos <? ms_pos m) || (ms_pos m <? 0) then Throw Invalid_argument
    else Ok (firstn (Z.to_nat (pos - ms_pos m)) (skipn (Z.to_nat (ms_pos m)) (ms_source m)),
             mk_mstream (ms_source m) pos false).

(* streams/memory_input_stream.cc:59-66 *)
Definition ms_seek (m : mstream) (p : N) : res mstream :=
  if ms_closed m then Throw Stream_err
  else
    let m0 := mk_mstream (ms_source m) 0 false in
    Ok (mk_mstream (ms_source m) (ms_advance m0 p) false).

(* streams/memory_input_stream.cc:68-73, 75-80, 82-87 *)
Definition ms_close (m : mstream) : mstream := mk_mstream [] (ms_pos m) true.
Definition ms_size (m : mstream) : res N :=
  if ms_closed m then Throw Stream_err else Ok (N.of_nat (length (ms_source m))).
Definition ms_position (m : mstream) : res N :=
  if ms_closed m then Throw Stream_err else Ok (Z.to_N (ms_pos m mod 2 ^ 64)).

(* ---------------- S3_input_stream ---------------- *)

(* include/mlio/streams/s3_input_stream.h:82-88.  [s3_object] is the object in the bucket: it does not change, and the
   service answers faithfully. *)
Record s3stream := mk_s3 { s3_object : list byte; s3_size : N; s3_pos : N; s3_closed : bool }.
(* streams/s3_input_stream.cc:71-74, 86-99: the size is fetched when the stream is made. *)
Definition s3_open (object : list byte) : s3stream := mk_s3 object (N.of_nat (length object)) 0 false.

(* The service: GET with "Range: bytes=a-b" answers with the bytes at a, ..., b as far as they exist; a range that
   starts at or beyond the end is an error. *)
Definition s3_get (object : list byte) (a b : N) : res (list byte) :=
  if (N.of_nat (length object) <=? a)%N then Throw System_err
  else Ok (firstn (N.to_nat (b + 1 - a)) (skipn (N.to_nat a) object)).

(* s3_client.cc:138-164 read_object: the range is offset to offset + size inclusive (one byte more than is read);
   size bytes at most are taken from the answer. *)
Definition s3_read_object (object : list byte) (offset n : N) : res (list byte) :=
  let* body := s3_get object offset ((offset + n) mod 2 ^ 64) in
  Ok (firstn (N.to_nat n) body).

(* streams/s3_input_stream.cc:28-43 *)
Definition s3_read (s : s3stream) (n : N) : res (list byte * s3stream) :=
  if s3_closed s then Throw Stream_err
  else if (n =? 0)%N || (s3_pos s =? s3_size s)%N then Ok ([], s)
  else
    let n' := N.min (s3_size s - s3_pos s) n in
    let* bs := s3_read_object (s3_object s) (s3_pos s) n' in
    Ok (bs, mk_s3 (s3_object s) (s3_size s) (s3_pos s + N.of_nat (length bs)) false).

(* streams/s3_input_stream.cc:45-54 *)
Definition s3_seek (s : s3stream) (p : N) : res s3stream :=
  if s3_closed s then Throw Stream_err
  else if (s3_size s <? p)%N then Throw System_err
  else Ok (mk_s3 (s3_object s) (s3_size s) p false).

(* streams/s3_input_stream.cc:56-59; s3_input_stream.h:50-58: size and position do not check for closed. *)
Definition s3_close (s : s3stream) : s3stream := mk_s3 (s3_object s) (s3_size s) (s3_pos s) true.

(* ---------------- File_input_stream ---------------- *)

(* include/mlio/streams/file_input_stream.h.  [fs_content] is the file (it does not change), [fs_pos] the file offset kept
   by the operating system, [fs_sched] how much each read call returns, [fs_size] the cached size (0: not fetched). *)
Record fstream := mk_fs { fs_content : list byte; fs_pos : N; fs_sched : list nat; fs_size : N; fs_closed : bool }.
Definition fs_open (content : list byte) (sched : list nat) : fstream := mk_fs content 0 sched 0 false.

(* streams/file_input_stream.cc:53-66; read(2) returns between 1 and n bytes unless the offset is at the end. *)
Definition fs_read (f : fstream) (n : N) : res (list byte * fstream) :=
  if fs_closed f then Throw Stream_err
  else if (n =? 0)%N then Ok ([], f)
  else
    let '(bs, s) := stream_read (mk_stream (skipn (N.to_nat (fs_pos f)) (fs_content f)) (fs_sched f)) n in
    Ok (bs, mk_fs (fs_content f) (fs_pos f + N.of_nat (length bs)) (s_sched s) (fs_size f) false).

(* streams/file_input_stream.cc:95-109 *)
Definition fs_get_size (f : fstream) : N :=
  if (fs_size f =? 0)%N then N.of_nat (length (fs_content f)) else fs_size f.

(* streams/file_input_stream.cc:68-88; lseek(2) does not fail on a regular file. *)
Definition fs_seek (f : fstream) (p : N) : res fstream :=
  if fs_closed f then Throw Stream_err
  else
    let size := fs_get_size f in
    Ok (mk_fs (fs_content f) (N.min p size) (fs_sched f) size false).

(* streams/file_input_stream.cc:90-93 *)
Definition fs_close (f : fstream) : fstream := mk_fs (fs_content f) (fs_pos f) (fs_sched f) (fs_size f) true.

(* ---------------- one interface ---------------- *)

(* include/mlio/streams/input_stream.h: the virtual functions, for the three classes. *)
Inductive astream :=
| A_memory (m : mstream)
| A_s3 (s : s3stream)
| A_file (f : fstream).

Definition a_read (a : astream) (n : N) : res (list byte * astream) :=
  match a with
  | A_memory m => let* (bs, m') := ms_read m n in Ok (bs, A_memory m')
  | A_s3 s => let* (bs, s') := s3_read s n in Ok (bs, A_s3 s')
  | A_file f => let* (bs, f') := fs_read f n in Ok (bs, A_file f')
  end.
(* The zero-copy function; streams/input_stream_base.cc:28-35 for the classes without zero-copy. *)
Definition a_read_slice (a : astream) (n : N) : res (list byte * astream) :=
  match a with
  | A_memory m => let* (bs, m') := ms_read_slice m n in Ok (bs, A_memory m')
  | _ => a_read a n
  end.
Definition a_seek (a : astream) (p : N) : res astream :=
  match a with
  | A_memory m => let* m' := ms_seek m p in Ok (A_memory m')
  | A_s3 s => let* s' := s3_seek s p in Ok (A_s3 s')
  | A_file f => let* f' := fs_seek f p in Ok (A_file f')
  end.
Definition a_close (a : astream) : astream :=
  match a with A_memory m => A_memory (ms_close m) | A_s3 s => A_s3 (s3_close s) | A_file f => A_file (fs_close f) end.
Definition a_size (a : astream) : res N :=
  match a with
  | A_memory m => ms_size m
  | A_s3 s => Ok (s3_size s)
  | A_file f => if fs_closed f then Throw Stream_err else Ok (fs_get_size f)
  end.
Definition a_position (a : astream) : res N :=
  match a with
  | A_memory m => ms_position m
  | A_s3 s => Ok (s3_pos s)
  | A_file f => if fs_closed f then Throw Stream_err else Ok (fs_pos f)
  end.

Inductive sop := S_read (n : N) | S_read_slice (n : N) | S_seek (p : N) | S_close | S_size | S_position.
Inductive sout := Out_bytes (bs : list byte) | Out_unit | Out_number (n : N).

(* One call: its outcome, and the stream afterwards (unchanged after an exception). *)
Definition a_do (o : sop) (a : astream) : res sout * astream :=
  match o with
  | S_read n => match a_read a n with Ok (bs, a') => (Ok (Out_bytes bs), a') | Throw e => (Throw e, a) | UB => (UB, a) | Fuel => (Fuel, a) end
  | S_read_slice n => match a_read_slice a n with Ok (bs, a') => (Ok (Out_bytes bs), a') | Throw e => (Throw e, a) | UB => (UB, a) | Fuel => (Fuel, a) end
  | S_seek p => match a_seek a p with Ok a' => (Ok Out_unit, a') | Throw e => (Throw e, a) | UB => (UB, a) | Fuel => (Fuel, a) end
  | S_close => (Ok Out_unit, a_close a)
  | S_size => (rmap Out_number (a_size a), a)
  | S_position => (rmap Out_number (a_position a), a)
  end.
Fixpoint a_run (ops : list sop) (a : astream) : list (res sout) :=
  match ops with
  | [] => []
  | o :: rest => let '(x, a') := a_do o a in x :: a_run rest a'
  end.

(* ---------------- Instance::bits ---------------- *)

(* instance.cc:87-122: one pass of the outer loop per block size.  [held] is what has been read; the block has
   [size] bytes.  Doubling is on unbounded numbers. *)
Fixpoint read_stream (fuel : nat) (s : stream) (size : N) (held : list byte) : res (list byte) :=
  match fuel with
  | O => Fuel
  | S fuel' =>
      let* r := fill (length (s_rest s) + 2) s (size - N.of_nat (length held)) held in
      let '(bs, s', eof) := r in
      if eof then Ok bs else read_stream fuel' s' (2 * size) bs
  end.

(* instance.cc:57-77 load_bits_from_store and 79-125 read_stream.  [zero_copy] and [seekable] are those of the stream,
   [size] its size; [first_block] is the size of the first block of a stream that cannot seek (0x100000). *)
Definition load_bits (fuel : nat) (zero_copy seekable : bool) (first_block : N) (content : list byte) (sched : list nat) : res (list byte) :=
  if zero_copy then Ok content (* stream->read(stream->size()), 57-70 *)
  else read_stream fuel (mk_stream content sched) (if seekable then N.of_nat (length content) else first_block) [].
