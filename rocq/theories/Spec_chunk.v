(* Vocabulary for the property that records stay what they are. *)
From Verif Require Import Common Model_rec Model_chunk.

(* The record readers: lines of text, rows of CSV, RecordIO records, Parquet files. *)
Inductive stream_reader : decoder -> Prop :=
| sr_text skip_blank : stream_reader (text_line_decode skip_blank)
| sr_csv p : stream_reader (csv_decode p)
| sr_recordio : stream_reader recordio_decode
| sr_parquet : stream_reader parquet_decode.

(* [locate] gives the place of each record in the chunk it is taken from. *)
Definition located (D : decoder) (locate : list byte -> bool -> nat) : Prop :=
  forall chunk b r rest hint, D chunk b = Ok (Some r, rest, hint) ->
    firstn (length (payload r)) (skipn (locate chunk b) chunk) = payload r /\
    locate chunk b + length (payload r) <= length chunk.

(* All records the caller holds have the bytes they had when they were returned. *)
Definition intact (m : mem) : Prop :=
  Forall (fun h => slice_bytes (m_heap m) (snd h) = Ok (payload (fst h))) (m_held m).

(* The results of reading to the end or to the first error: the records, then the end or the error. *)
Definition outcomes (x : list rec * res unit) : list (res (option rec)) :=
  map (fun r => Ok (Some r)) (fst x) ++ [match snd x with Ok _ => Ok None | Throw e => Throw e | UB => UB | Fuel => Fuel end].
