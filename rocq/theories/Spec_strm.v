(* What a stream is to its user: a content and a cursor. *)
From Verif Require Import Common Model_rec Model_strm.

Inductive kind_of_stream := K_memory | K_s3 | K_file.

Record cursor := mk_cursor { c_pos : N; c_closed : bool }.

(* What a call may answer.  A file may deliver less than was asked for; S3 streams refuse to seek beyond the end where the
   others stop at the end, and give size and position also after close. *)
Definition answers (k : kind_of_stream) (content : list byte) (o : sop) (c : cursor) (r : res sout) (c' : cursor) : Prop :=
  let size := N.of_nat (length content) in
  match o with
  | S_read n | S_read_slice n =>
      if c_closed c then r = Throw Stream_err /\ c' = c
      else exists bs, r = Ok (Out_bytes bs) /\ bs = firstn (length bs) (skipn (N.to_nat (c_pos c)) content) /\
        (N.of_nat (length bs) <= n)%N /\ (bs = [] <-> n = 0%N \/ c_pos c = size) /\
        (k <> K_file -> N.of_nat (length bs) = N.min n (size - c_pos c)) /\
        c' = mk_cursor (c_pos c + N.of_nat (length bs)) false
  | S_seek p =>
      if c_closed c then r = Throw Stream_err /\ c' = c
      else if (p <=? size)%N then r = Ok Out_unit /\ c' = mk_cursor p false
      else match k with
           | K_s3 => r = Throw System_err /\ c' = c
           | _ => r = Ok Out_unit /\ c' = mk_cursor size false
           end
  | S_close => r = Ok Out_unit /\ c' = mk_cursor (c_pos c) true
  | S_size => c' = c /\ match k, c_closed c with K_s3, _ | _, false => r = Ok (Out_number size) | _, true => r = Throw Stream_err end
  | S_position => c' = c /\ match k, c_closed c with K_s3, _ | _, false => r = Ok (Out_number (c_pos c)) | _, true => r = Throw Stream_err end
  end.

(* A history: every call answers as above, and the cursor never leaves the content. *)
Inductive history (k : kind_of_stream) (content : list byte) : list sop -> cursor -> list (res sout) -> Prop :=
| history_nil c : history k content [] c []
| history_cons o ops c r c' rs :
    answers k content o c r c' -> (c_pos c' <= N.of_nat (length content))%N -> history k content ops c' rs ->
    history k content (o :: ops) c (r :: rs).

(* The stream as it is opened. *)
Definition opened (k : kind_of_stream) (content : list byte) (sched : list nat) : astream :=
  match k with
  | K_memory => A_memory (ms_open content)
  | K_s3 => A_s3 (s3_open content)
  | K_file => A_file (fs_open content sched)
  end.

(* Size of the content and argument together stay below 2^63. *)
Definition moderate (content : list byte) (o : sop) : Prop :=
  match o with
  | S_read n | S_read_slice n | S_seek n => (N.of_nat (length content) + n < 2 ^ 63)%N
  | _ => True
  end.
