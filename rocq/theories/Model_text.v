(* The text-line reader, /repo/src/mlio/text_line_reader.cc, and the parts from which every reader that derives from
   Parallel_data_reader is put together. *)
From Verif Require Import Common Model_rec Model_inst Model_par.

(* A text file: its id, its text as UTF-8 (what make_utf8_stream delivers, Model_utf8), whether the stream hands out its
   memory, the sizes of the partial reads, and the size of the chunks. *)
Record text_file := mk_text_file {
  tf_id : N;
  tf_text : list byte;
  tf_in_memory : bool;
  tf_reads : list nat;
  tf_chunk : N }.

(* text_line_reader.cc:44-48 make_record_reader.  Simplification: the partial reads are the same in every epoch. *)
Definition text_store (f : text_file) : store :=
  mk_store (tf_id f)
    (Ok (Some (records (text_line_decode false) (tf_in_memory f) (tf_reads f) (tf_chunk f) (tf_text f)))).

(* An example: the elements of its only feature, a string tensor of shape (n, 1), and its padding. *)
Record text_example := mk_text_example { te_values : list (list byte); te_padding : nat }.

(* instance.h bits().  The instances of this reader are never whole stores. *)
Definition bits (i : instance) : list byte := match i_bits i with Some b => b | None => [] end.

(* text_line_reader.cc:60-64: [i] is row_pos - begin; a store past the end is undefined *)
Fixpoint store_rows (values : list (list byte)) (i : nat) (rows : list (list byte)) : res (list (list byte)) :=
  match rows with
  | [] => Ok values
  | r :: rest =>
      if i <? length values then store_rows (firstn i values ++ r :: skipn (S i) values) (S i) rest
      else UB
  end.

(* text_line_reader.cc:58-75, 77-84 decode, make_tensor; the elements of a new array are empty strings *)
Definition text_decode (b : batch instance) : res (option text_example) :=
  let* values := store_rows (repeat [] (ba_size b)) 0 (map bits (ba_instances b)) in
  Ok (Some (mk_text_example values (ba_size b - length (ba_instances b)))).

(* What the decode node makes of the result (parallel_data_reader.cc:224-239).  Undefined behaviour cannot be told in Model_par;
   the theorems exclude it. *)
Definition dres_of {E} (r : res (option E)) : dres E :=
  match r with
  | Ok (Some e) => D_example e
  | Ok None => D_skip
  | Throw x => D_fail x
  | UB | Fuel => D_fail Other_err
  end.

(* The client's calls of read_example and peek_example (data_reader_base.cc:25-44, Model_inst.b_read and b_peek) get what
   the calls of read_example_core return one after the other; [l] is the log of these calls (Model_par).  A call that is not
   in the log has not returned; it is given as UB here. *)
Definition replay {E} (l : list (@out E)) : machine E :=
  mk_machine (list (@out E)) l
    (fun l => match l with
              | [] => (UB, [])
              | O_example e :: r => (Ok (Some e), r)
              | O_end :: r => (Ok None, r)
              | O_error x :: r => (Throw x, r)
              end)
    (fun l => l).
