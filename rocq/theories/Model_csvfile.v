(* The CSV reader as a whole: /repo/src/mlio/csv_reader.cc put together with the record reader (Model_rec), the chain of
   instance readers (Model_inst) and the parallel reader (Model_par). *)
From Verif Require Import Common Model_rec Model_inst Model_par Model_text Model_csv.

(* csv_reader.cc:102-104: the rows a record reader delivers, then the error it throws, if any *)
Definition rows_of (r : list rec * res unit) : list row :=
  let (rs, e) := r in map (fun r => Ok (payload r)) rs ++ match e with Ok _ => [] | _ => [cast_err e UB] end.
(* csv_reader.cc:102-104: those of a file *)
Definition csv_rows (rp : csv_rparams) (f : text_file) : list row :=
  rows_of (records (csv_decode rp) (tf_in_memory f) (tf_reads f) (tf_chunk f) (tf_text f)).

(* The record reader that make_record_reader returns for a store, after it has removed the header. *)
Fixpoint to_records (rows : list row) : list rec * res unit :=
  match rows with
  | [] => ([], Ok tt)
  | Ok t :: rest => let (rs, e) := to_records rest in (mk_rec t kComplete :: rs, e)
  | e :: _ => ([], cast_err e UB)
  end.
Definition csv_store (id : N) (rows : list row) : Model_inst.store := mk_store id (Ok (Some (to_records rows))).
