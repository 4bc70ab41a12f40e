(* Whole readers over data stores that are compressed or in some encoding: the record readers of Model_source as the stores of the
   instance readers (Model_inst). *)
From Verif Require Import Common Model_rec Model_gzip Model_utf8 Model_names Model_source Model_inst Model_text Model_csv Model_csvfile.

(* The libraries behind the streams: zlib (Model_gzip) and iconv (Model_utf8). *)
Record libs := mk_libs {
  l_z : Type; l_init : l_z; l_step : l_z -> byte -> list byte * znext l_z; l_stops : l_z -> bool;
  l_st : Type; l_open : encoding -> option l_st; l_cv : encoding -> l_st -> list byte -> cres l_st; l_default : l_st }.

(* A data store with its id, the encoding that the reader was given (text_line_reader.cc:46, csv_reader.cc:102), and the size of the
   chunks.  The fuel bounds the loops of Model_source. *)
Record source_file := mk_source_file {
  sf_id : N; sf_store : dstore; sf_given : option encoding; sf_chunk : N; sf_fuel : nat }.

Section Coded.
  Variable lb : libs.

  (* text_line_reader.cc:44-48, csv_reader.cc:100-104 *)
  Definition source_text_records (D : decoder) (sf : source_file) : list rec * res unit :=
    text_records (l_z lb) (l_init lb) (l_step lb) (l_stops lb) (l_st lb) (l_open lb) (l_cv lb) (l_default lb) D
      (sf_fuel sf) (sf_chunk sf) (sf_given sf) (sf_store sf).
  (* recordio_protobuf_reader.cc:120-123 *)
  Definition source_records (D : decoder) (sf : source_file) : list rec * res unit :=
    store_records (l_z lb) (l_init lb) (l_step lb) (l_stops lb) D (sf_fuel sf) (sf_chunk sf) (sf_store sf).

  (* text_line_reader.cc:44-48 make_record_reader.  Simplification: an error in opening the stream comes with the first record; the
     partial reads are the same in every epoch. *)
  Definition line_source (sf : source_file) : Model_inst.store :=
    Model_inst.mk_store (sf_id sf) (Ok (Some (source_text_records (text_line_decode false) sf))).
  (* recordio_protobuf_reader.cc:120-123 make_record_reader, with the same simplification. *)
  Definition recordio_source (sf : source_file) : Model_inst.store :=
    Model_inst.mk_store (sf_id sf) (Ok (Some (source_records recordio_decode sf))).
  (* csv_reader.cc:100-104: the rows before the header is removed. *)
  Definition csv_source (rp : csv_rparams) (sf : source_file) : list row := rows_of (source_text_records (csv_decode rp) sf).
End Coded.
