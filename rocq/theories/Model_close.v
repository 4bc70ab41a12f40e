(* Closing streams, and using them afterwards: the streams of the library, streams of the program, and the two streams that
   are made of another one.  Paths are under /repo/src/mlio unless they say otherwise; headers are in /repo/include/mlio.
   Bytes and positions are left out (areas strm, text): a call that succeeds gives data, a number or nothing. *)
From Verif Require Import Common.
From Coq Require Import List Arith.
Import ListNotations.

(* The stream classes that read from something that is not a stream.  A foreign stream is a class of the program; it obeys if its
   closed() is true once it was closed. *)
Inductive kind := K_memory | K_file | K_s3 | K_pipe | K_foreign (obeys : bool).

(* s_held: what a stream gives up when it is closed: source_ (memory_input_stream.h:73), fd_ (file_input_stream.h:63), fifo_fd_
   (sagemaker_pipe_input_stream.h:84); inflater_ and buffer_ (gzip_inflate_stream.h:64-65), converter_ and buffer_ of a
   stream that converts (utf8_input_stream.h:86-87).  s_flag: closed_ (memory_input_stream.h:75, s3_input_stream.h:86).
   A stream made of another one has its number; is_utf8: a Utf8_input_stream that has nothing to convert. *)
Inductive stream :=
| St_base (k : kind) (held flag : bool)
| St_gzip (inner : nat) (held : bool)
| St_utf8 (inner : nat) (is_utf8 held : bool).

(* The streams in the order in which they were made; inner streams come first. *)
Definition streams := list stream.

Fixpoint set_nth (l : streams) (i : nat) (x : stream) : streams :=
  match l, i with [], _ => [] | _ :: t, O => x :: t | a :: t, S j => a :: set_nth t j x end.

(* closed(): memory_input_stream.h:51-54, file_input_stream.h:48-51, s3_input_stream.h:60-63, sagemaker_pipe_input_stream.h:60-63;
   streams/gzip_inflate_stream.cc:83-86, streams/utf8_input_stream.cc:105-108.  The fuel is the number of the stream, plus one. *)
Definition base_closed (k : kind) (held flag : bool) : bool :=
  match k with
  | K_memory | K_s3 => flag
  | K_file | K_pipe => negb held
  | K_foreign obeys => obeys && flag
  end.

Fixpoint closed (fuel : nat) (l : streams) (i : nat) : bool :=
  match fuel, nth_error l i with
  | S n, Some (St_base k held flag) => base_closed k held flag
  | S n, Some (St_gzip j _) => closed n l j
  | S n, Some (St_utf8 j _ _) => closed n l j
  | _, _ => false
  end.

(* close(): streams/memory_input_stream.cc:68-73, streams/file_input_stream.cc:90-93, streams/s3_input_stream.cc:56-59,
   streams/sagemaker_pipe_input_stream.cc:110-115; streams/gzip_inflate_stream.cc:74-81, streams/utf8_input_stream.cc:96-103. *)
Fixpoint close (fuel : nat) (l : streams) (i : nat) : streams :=
  match fuel, nth_error l i with
  | S n, Some (St_base k held flag) =>
      set_nth l i (match k with
                   | K_memory => St_base k false true
                   | K_file | K_pipe => St_base k false flag
                   | K_s3 | K_foreign _ => St_base k held true
                   end)
  | S n, Some (St_gzip j _) => set_nth (close n l j) i (St_gzip j false)
  | S n, Some (St_utf8 j u _) => set_nth (close n l j) i (St_utf8 j u false)
  | _, _ => l
  end.

(* What a call gives. *)
Inductive answer := A_data | A_number | A_nothing | A_bool (b : bool).

(* The oracle of a call: why it fails although the streams are open, how a buffer stands.  o_fault: an error of the system, of S3
   or of the data; o_fill: a buffer is empty and the inner stream is read. *)
Record oracle := mk_oracle { o_fault : option exn; o_fill : bool }.

Definition outcome (o : oracle) (a : answer) : res answer := match o_fault o with Some x => Throw x | None => Ok a end.

(* What a closed base stream does that is not stopped by check_if_closed: pos_ of a memory stream points into a block that may be gone;
   a descriptor of -1 is an error of the system. *)
Definition use (k : kind) (held : bool) (o : oracle) (a : answer) : res answer :=
  match k, held with
  | K_memory, false => UB
  | K_file, false | K_pipe, false => Throw System_err
  | _, _ => outcome o a
  end.

(* check_if_closed: streams/memory_input_stream.cc:94-99, streams/file_input_stream.cc:132-139, streams/s3_input_stream.cc:76-81,
   streams/sagemaker_pipe_input_stream.cc:234-241; streams/gzip_inflate_stream.cc:88-93, streams/utf8_input_stream.cc:225-230. *)

(* read(destination) for a destination that is not empty, and read(size): streams/memory_input_stream.cc:27-57,
   streams/file_input_stream.cc:53-66, streams/s3_input_stream.cc:28-43, streams/sagemaker_pipe_input_stream.cc:62-108;
   streams/gzip_inflate_stream.cc:38-72, streams/utf8_input_stream.cc:59-94, 125-194.  A foreign stream fails if it knows that it is closed.
   input_stream_base.cc:28-35 read(size) allocates and calls the other read.  A null inflater, converter or buffer is used: UB
   (a converting stream that has up to 3 bytes left over would give those first; left out). *)
Fixpoint read (fuel : nat) (l : streams) (i : nat) (o : oracle) : res answer :=
  match fuel, nth_error l i with
  | S n, Some (St_base k held flag) => if base_closed k held flag then Throw Stream_err else use k held o A_data
  | S n, Some (St_gzip j held) =>
      if closed n l j then Throw Stream_err
      else let* _ := (if o_fill o then read n l j o else Ok A_data) in
           if held then outcome o A_data else UB
  | S n, Some (St_utf8 j u held) =>
      if closed n l j then Throw Stream_err
      else if u then (if o_fill o then read n l j o else outcome o A_data)
      else if held then let* _ := (if o_fill o then read n l j o else Ok A_data) in outcome o A_data
      else UB
  | _, _ => UB
  end.

(* seek: streams/memory_input_stream.cc:59-66, streams/file_input_stream.cc:68-87, streams/s3_input_stream.cc:45-54;
   streams/input_stream_base.cc:37-40 for the others. *)
Definition seek (l : streams) (i : nat) (o : oracle) : res answer :=
  match nth_error l i with
  | Some (St_base K_pipe _ _) => Throw Not_supported
  | Some (St_base k held flag) => if base_closed k held flag then Throw Stream_err else use k held o A_nothing
  | Some _ => Throw Not_supported
  | None => UB
  end.

(* size and position: streams/memory_input_stream.cc:75-87, streams/file_input_stream.cc:95-130; s3_input_stream.h:50-58 without a
   check; streams/input_stream_base.cc:42-50 for the others. *)
Definition tell (l : streams) (i : nat) (o : oracle) : res answer :=
  match nth_error l i with
  | Some (St_base K_pipe _ _) => Throw Not_supported
  | Some (St_base K_s3 _ _) => Ok A_number
  | Some (St_base k held flag) => if base_closed k held flag then Throw Stream_err else use k held o A_number
  | Some _ => Throw Not_supported
  | None => UB
  end.

(* Calls of a program: making streams (over an existing one), and the methods, for which stream.cc:146-185 in /repo/src/mlio-py/mlio/core has
   Python names; leaving a with block is C_close.  C_gzip and C_utf8 are the constructors (streams/gzip_inflate_stream.cc:30-34,
   streams/utf8_input_stream.cc:110-123); the reads and seeks of make_utf8_stream (287-335) around it are calls of their own. *)
Inductive call :=
| C_base (k : kind) | C_gzip (i : nat) | C_utf8 (i : nat) (is_utf8 : bool)
| C_read (i : nat) (o : oracle) | C_seek (i : nat) (o : oracle) | C_tell (i : nat) (o : oracle) | C_close (i : nat) | C_closed (i : nat).

(* The number of a call refers to a stream that exists; other calls do nothing (there is no object to call). *)
Definition step (l : streams) (c : call) : streams * res answer :=
  let known i r := if i <? length l then r else (l, Ok A_nothing) in
  match c with
  | C_base k => (l ++ [St_base k true false], Ok A_nothing)
  | C_gzip i => known i (l ++ [St_gzip i true], Ok A_nothing)
  | C_utf8 i u => known i (l ++ [St_utf8 i u (negb u)], Ok A_nothing)
  | C_read i o => known i (l, read (S i) l i o)
  | C_seek i o => known i (l, seek l i o)
  | C_tell i o => known i (l, tell l i o)
  | C_close i => known i (close (S i) l i, Ok A_nothing)
  | C_closed i => known i (l, Ok (A_bool (closed (S i) l i)))
  end.

Fixpoint run (l : streams) (p : list call) : streams * list (res answer) :=
  match p with [] => (l, []) | c :: p' => let (l1, r) := step l c in let (l2, rs) := run l1 p' in (l2, r :: rs) end.
