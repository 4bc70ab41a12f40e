(* Streams as Arrow files. *)
From Verif Require Import Common Model_rec Model_strm Model_pyerr.
From Coq Require Import ZArith.
Local Open Scope Z_scope.

(* The class of an exception of the stream models. *)
Definition class_of (e : exn) : cls :=
  match e with
  | Corrupt_record => Corrupt_record_error
  | Corrupt_header => Corrupt_header_error
  | Corrupt_footer => Corrupt_footer_error
  | Record_too_large => Record_too_large_error
  | Invalid_instance => Invalid_instance_error
  | Schema_err => Schema_error
  | Stream_err => Stream_error
  | Inflate_err => Inflate_error
  | Not_supported => Not_supported_error
  | Invalid_argument => Invalid_argument_error
  | System_err => System_error
  | Other_err => Std_exception
  end.

(* What a call of Arrow answers. *)
Inductive answer :=
| Bytes (bs : list byte)
| Number (n : Z)
| Done
| Error (s : status)
| Undefined.

(* static_cast between std::int64_t and std::size_t. *)
Definition to_size (n : Z) : N := Z.to_N (n mod 2 ^ 64).
Definition to_int64 (n : N) : Z := if (n <? 2 ^ 63)%N then Z.of_N n else Z.of_N n - 2 ^ 64.

(* src/mlio-py/mlio/integ/arrow/arrow_util.h:61-84 arrow_boundary *)
Definition boundary (r : res sout) : answer :=
  match r with
  | Ok (Out_bytes bs) => Bytes bs
  | Ok (Out_number n) => Number (to_int64 n)
  | Ok Out_unit => Done
  | Throw e => Error (convert_exception (class_of e))
  | UB => Undefined
  | Fuel => Undefined
  end.

Definition a_closed (a : astream) : bool :=
  match a with A_memory m => ms_closed m | A_s3 s => s3_closed s | A_file f => fs_closed f end.

(* The calls of arrow::io::RandomAccessFile. *)
Inductive fop :=
| F_read (n : Z)            (* Read(nbytes, out) *)
| F_read_buffer (n : Z)     (* Read(nbytes) *)
| F_seek (p : Z)
| F_tell
| F_size
| F_close
| F_read_at (p n : Z).      (* ReadAt, inherited: under a lock, Seek and then Read *)

(* src/mlio-py/mlio/integ/arrow/arrow_file.cc:101-107 check_if_closed, and the call of the stream. *)
Definition checked (o : sop) (a : astream) : answer * astream :=
  if a_closed a then (Error St_invalid, a) else let (r, a') := a_do o a in (boundary r, a').

(* arrow_file.cc:41-99.  The memory for Read(nbytes, out) is large enough for the bytes read. *)
Definition f_do (o : fop) (a : astream) : answer * astream :=
  match o with
  | F_read n => checked (S_read (to_size n)) a
  | F_read_buffer n => checked (S_read_slice (to_size n)) a
  | F_seek p => checked (S_seek (to_size p)) a
  | F_tell => checked S_position a
  | F_size => checked S_size a
  | F_close => (Done, a_close a)
  | F_read_at p n =>
    match checked (S_seek (to_size p)) a with
    | (Done, a') => checked (S_read (to_size n)) a'
    | (r, a') => (r, a')
    end
  end.
Fixpoint f_run (ops : list fop) (a : astream) : list answer :=
  match ops with
  | [] => []
  | o :: rest => let (x, a') := f_do o a in x :: f_run rest a'
  end.

(* arrow_file.cc:32-37 the constructor; which streams are seekable: memory_input_stream.h:56, s3_input_stream.h:65,
   file_input_stream.h:53 true; gzip_inflate_stream.h, utf8_input_stream.h and
   sagemaker_pipe_input_stream.h do not override input_stream_base.h:42-45's false. *)
Inductive stream_class := C_memory | C_s3 | C_file | C_gzip | C_utf8 | C_sagemaker_pipe.
Definition seekable (c : stream_class) : bool :=
  match c with C_memory | C_s3 | C_file => true | C_gzip | C_utf8 | C_sagemaker_pipe => false end.
Definition make_file (c : stream_class) : res unit := if seekable c then Ok tt else Throw Invalid_argument.
