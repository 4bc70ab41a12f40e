(* The RecordIO-protobuf reader as a whole: /repo/src/mlio/recordio_protobuf_reader.cc put together with the record reader (Model_rec),
   the chain of instance readers (Model_inst) and the parallel reader (Model_par). *)
From Verif Require Import Common Model_rec Model_inst Model_text.

(* recordio_protobuf_reader.cc:120-123 make_record_reader; a file as in Model_text, its text being any bytes. *)
Definition recordio_store (f : text_file) : store :=
  mk_store (tf_id f) (Ok (Some (records recordio_decode (tf_in_memory f) (tf_reads f) (tf_chunk f) (tf_text f)))).
