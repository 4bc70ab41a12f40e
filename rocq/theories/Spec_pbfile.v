(* What RecordIO files hold, and what a whole RecordIO-protobuf reader goes through. *)
From Coq Require Import Permutation.
From Verif Require Import Common Model_rec Spec_rec Model_inst Spec_inst Model_par Spec_par Model_text Spec_text Model_tsr Model_csv Model_pb Spec_pb
  Spec_csvfile Model_pbfile.

(* The file is the encoding of RecordIO records that hold the payloads, each in one record or split over several. *)
Definition recordio_file (f : text_file) (payloads : list (list byte)) : Prop :=
  (0 < tf_chunk f)%N /\ exists rs,
    tf_text f = flat_map (fun x => rio_encode1 (kind (fst x)) (payload (fst x)) (snd x)) rs /\
    Forall (fun x => rio_wf (kind (fst x)) (payload (fst x)) (snd x)) rs /\
    groups (map fst rs) payloads.

(* The payloads of the files as instances. *)
Definition file_instances (fls : list (text_file * list (list byte))) : list Model_inst.instance :=
  concat (map (fun fl => Spec_inst.numbered (tf_id (fst fl)) (snd fl)) fls).

Section Reading.
  Context (V : Type) (vzero : V).
  (* The protobuf library: the message that some bytes are, if they are one. *)
  Context (parse : list byte -> option (message V)).

  Definition messages (b : batch Model_inst.instance) : list (Model_pb.instance V) := map (fun i => parse (bits i)) (ba_instances b).

  (* A reader over the files fls (each with its payloads): p are the options, h is the handling of bad instances, s the schema; dec is
     what decoding the batches gives (one of the outcomes of Model_pb.decode_batch), M the chain of instance readers, and src and
     src_end are what the background thread reads.  Messages are clean: Spec_pb.clean_message. *)
  Definition pb_reading {rng} (seeded : rng) draw shuf size_max (p : rd_params) (h : beh) (s : schema)
      (fls : list (text_file * list (list byte))) (dec : batch Model_inst.instance -> dres (example (feature V))) M src src_end : Prop :=
    Forall (fun fl => recordio_file (fst fl) (snd fl)) fls /\
    Forall (fun b => clean V (parse b)) (concat (map snd fls)) /\
    usable_schema (p_batch p) s /\
    make_instance_reader seeded draw shuf size_max p (map (fun fl => recordio_store (fst fl)) fls) = Ok M /\
    (forall r, p_ratio p = Some r -> float_ratio r) /\
    (forall w g, 0 < w -> fst (draw w g) < w) /\ (forall l g, Permutation (fst (shuf l g)) l) /\
    length (file_instances fls) < size_max /\ 0 < p_batch p /\
    fed_by M (p_batch p) (p_last p) src src_end /\
    forall ep b, In b (src ep) -> exists r, decode_batch V vzero h s (ba_size b) (messages b) r /\ dec b = dres_of r.

  (* The example holds the messages ms, one per row, and counts the rest of its rows as padding. *)
  Definition example_of (s : schema) (size : nat) (e : example (feature V)) (ms : list (message V)) : Prop :=
    e_schema e = s /\ e_padding e = (Z.of_nat size - Z.of_nat (length ms))%Z /\
    Forall2 (holds_rows V size ms) (s_attributes s) (e_features e).

  (* Batches of the selected instances of the files, in the order asked for. *)
  Definition file_batches (p : rd_params) (fls : list (text_file * list (list byte))) (bs : list (batch Model_inst.instance)) : Prop :=
    exists ys zs, Spec_inst.selected p (file_instances fls) ys /\ ordered p ys zs /\
      batches_of (p_batch p) (effective (p_last p)) 0 zs bs.
End Reading.
