(* What an Arrow file over a stream is to its user: a content and a cursor. *)
From Verif Require Import Common Model_rec Model_strm Spec_strm Model_pyerr Model_arrow.
From Coq Require Import ZArith.
Local Open Scope Z_scope.

(* The bytes from a place on, at most [n]. *)
Definition part (content : list byte) (p n : Z) : list byte := firstn (Z.to_nat n) (skipn (Z.to_nat p) content).

(* A read at place [p]: all that is there, for memory and S3; at least one byte if there is one, for files. *)
Definition delivers (k : kind_of_stream) (content : list byte) (p n : Z) (r : answer) (q : Z) : Prop :=
  exists m, 0 <= m <= n /\ r = Bytes (part content p m) /\ q = p + Z.of_nat (length (part content p m)) /\
    (k <> K_file -> part content p m = part content p n) /\
    (part content p m = [] <-> part content p n = []).

(* What a call may answer; the cursor is None when the file has been closed. *)
Definition file_answers (k : kind_of_stream) (content : list byte) (o : fop) (c : option Z) (r : answer) (c' : option Z) : Prop :=
  let size := Z.of_nat (length content) in
  match o, c with
  | F_close, _ => r = Done /\ c' = None
  | _, None => r = Error St_invalid /\ c' = None
  | (F_read n | F_read_buffer n), Some p => exists q, delivers k content p n r q /\ c' = Some q
  | F_seek p, Some p0 =>
      if p <=? size then r = Done /\ c' = Some p
      else match k with K_s3 => r = Error St_unknown /\ c' = Some p0 | _ => r = Done /\ c' = Some size end
  | F_tell, Some p => r = Number p /\ c' = Some p
  | F_size, Some p => r = Number size /\ c' = Some p
  | F_read_at p n, Some p0 =>
      if p <=? size then exists q, delivers k content p n r q /\ c' = Some q
      else match k with K_s3 => r = Error St_unknown /\ c' = Some p0 | _ => r = Bytes [] /\ c' = Some size end
  end.

(* Sizes and places that are not negative and, with the content, less than 2^63. *)
Definition sensible (content : list byte) (o : fop) : Prop :=
  let size := Z.of_nat (length content) in
  match o with
  | F_read n | F_read_buffer n | F_seek n => 0 <= n /\ size + n < 2 ^ 63
  | F_read_at p n => 0 <= p /\ size + p < 2 ^ 63 /\ 0 <= n /\ size + n < 2 ^ 63
  | _ => True
  end.

Inductive file_history (k : kind_of_stream) (content : list byte) : list fop -> option Z -> list answer -> Prop :=
| file_history_nil c : file_history k content [] c []
| file_history_cons o ops c r c' rs :
    file_answers k content o c r c' -> file_history k content ops c' rs -> file_history k content (o :: ops) c (r :: rs).
