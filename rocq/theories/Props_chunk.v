(* Records the caller holds stay what they are. *)
From Verif Require Import Common Model_rec Model_chunk Spec_chunk Proof_chunk.

(* C12. Whatever the caller reads, copies and drops, in whatever order, no step is undefined and every record it still
   holds has the bytes it had when it was returned. *)
Theorem C12_records_stay : forall D locate junk resizable content sched size ops,
  stream_reader D -> located D locate -> (0 < size)%N ->
  exists outs m, run junk resizable locate D ops (new_mem content sched size) = Ok (outs, m) /\ intact m.
Proof. exact C12_stay_l. Qed.
Print Assumptions C12_records_stay.

(* C12. What is read does not depend on what the caller holds: the reads give the records of the content one after the
   other, then the end or the error. *)
Theorem C12_same_records : forall D locate junk resizable content sched size ops outs m,
  stream_reader D -> located D locate -> (0 < size)%N ->
  run junk resizable locate D ops (new_mem content sched size) = Ok (outs, m) ->
  forall k, k < length outs -> k <= length (fst (records D false sched size content)) ->
    nth_error outs k = nth_error (outcomes (records D false sched size content)) k.
Proof. exact C12_records_l. Qed.
Print Assumptions C12_same_records.

(* C12. The records of every reader do have a place in their chunk. *)
Theorem C12_records_have_a_place : forall D, stream_reader D -> exists locate, located D locate.
Proof. exact C12_locatable_l. Qed.
Print Assumptions C12_records_have_a_place.

Theorem C12_recordio_place : located recordio_decode (fun _ _ => 8).
Proof. exact recordio_at. Qed.
Print Assumptions C12_recordio_place.

Theorem C12_parquet_place : located parquet_decode (fun _ _ => 0).
Proof. exact parquet_at. Qed.
Print Assumptions C12_parquet_place.

(* Three RecordIO records, read in blocks of 16 bytes that hold one record each.  The caller keeps the first and copies it
   (so that its block is not reused), then drops the second before the third is read (so that its block is). *)
Definition c12_content : list byte :=
  ([10; 35; 215; 206; 2; 0; 0; 0; 97; 98; 0; 0] ++
   [10; 35; 215; 206; 1; 0; 0; 0; 99; 0; 0; 0] ++
   [10; 35; 215; 206; 3; 0; 0; 0; 100; 101; 102; 0])%N.
Definition c12_run (ops : list op) := run 7%N true (fun _ _ => 8) recordio_decode ops (new_mem c12_content [5; 3] 16%N).
Definition c12_ops := [Op_read; Op_copy 0; Op_read; Op_drop 0; Op_read; Op_read].
Example C12_case :
  match c12_run c12_ops with
  | Ok (outs, m) =>
      outs = [Ok (Some (mk_rec [97; 98]%N 0%N)); Ok (Some (mk_rec [99]%N 0%N)); Ok (Some (mk_rec [100; 101; 102]%N 0%N)); Ok None] /\
      length (m_heap m) = 2 /\
      map (fun h => slice_bytes (m_heap m) (snd h)) (m_held m) = [Ok [100; 101; 102]%N; Ok [97; 98]%N; Ok [97; 98]%N]
  | _ => False
  end.
Proof. lazy. repeat split. Qed.
