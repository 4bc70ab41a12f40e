(* Image datasets, and what a whole image reader goes through. *)
From Coq Require Import Permutation.
From Verif Require Import Common Model_rec Spec_rec Model_inst Spec_inst Model_par Spec_par Model_text Spec_text Model_pbfile Spec_pbfile
  Spec_csvfile Model_csv Model_image Spec_image Model_imgfile.

(* A file and its images: with framing, a RecordIO file and its payloads; without, the file is the image.  An empty file that can
   seek is never read to its end (C49). *)
Definition image_source (fr : frame) (f : image_file) (images : list (list byte)) : Prop :=
  match fr with
  | F_recordio => im_error f = None /\ recordio_file (im_file f) images
  | F_none => images = [tf_text (im_file f)] /\
      (im_error f <> None \/ tf_in_memory (im_file f) = true \/ im_seekable f = false \/ tf_text (im_file f) <> [])
  end.

Definition readable (f : image_file) : Prop := im_error f = None.

(* The instances of a file, with or without their bytes. *)
Definition instances_in (fr : frame) (fl : image_file * list (list byte)) : list Model_inst.instance :=
  match fr with
  | F_recordio => Spec_inst.numbered (im_id (fst fl)) (snd fl)
  | F_none => map (fun k => mk_instance (im_id (fst fl)) k None) (seq 0 (length (snd fl)))
  end.
Definition image_instances (fr : frame) (fls : list (image_file * list (list byte))) : list Model_inst.instance :=
  concat (map (instances_in fr) fls).

(* The image that an instance stands for: the one with its number in its file. *)
Definition image_of (fls : list (image_file * list (list byte))) (i : Model_inst.instance) (b : list byte) : Prop :=
  exists f images, In (f, images) fls /\ im_id f = i_store i /\ nth_error images (i_index i) = Some b.

Section Reading.
  Context (imdecode : mode -> list byte -> option mat) (cv_resize : mat -> Z -> Z -> option mat).
  (* ip are the options of the image reader; images of c channels, h rows and w columns are asked for. *)
  Context (ip : params) (c h w : N).

  (* An image reader over the files fls, each with its images; p are the options of every reader, dec is what decoding the batches
     gives, M is the chain of instance readers, src and src_end are what the background thread reads. *)
  Definition image_reading {rng} (seeded : rng) draw shuf size_max (p : rd_params)
      (fls : list (image_file * list (list byte))) (dec : batch Model_inst.instance -> dres image_example) M src src_end : Prop :=
    decoder_ok imdecode /\ resizer_ok cv_resize /\ arguments_ok ip c h w /\
    Forall (fun fl => image_source (p_frame ip) (fst fl) (snd fl)) fls /\ NoDup (map (fun fl => im_id (fst fl)) fls) /\
    make_instance_reader seeded draw shuf size_max p (map (fun fl => image_store (p_frame ip) (fst fl)) fls) = Ok M /\
    (forall r, p_ratio p = Some r -> float_ratio r) /\
    (forall n g, 0 < n -> fst (draw n g) < n) /\ (forall l g, Permutation (fst (shuf l g)) l) /\
    length (concat (map snd fls)) < size_max /\ 0 < p_batch p /\
    fed_by M (p_batch p) (p_last p) src src_end /\
    forall b, dec b = dres_of (image_decode imdecode cv_resize ip (map fst fls) b).

  (* The images are ones for which the reader's handling of images is as it should be (cf. C58, C72, C73), and all files can be read. *)
  Definition regular (fls : list (image_file * list (list byte))) : Prop :=
    Forall (fun fl => readable (fst fl)) fls /\
    Forall (fun b => plain imdecode ip c b /\ moderate imdecode ip c b /\ ordinary imdecode cv_resize ip c h w b) (concat (map snd fls)).

  (* Batches of the selected instances of the files, in the order asked for. *)
  Definition image_batches (p : rd_params) (fls : list (image_file * list (list byte))) (bs : list (batch Model_inst.instance)) : Prop :=
    exists ys zs, Spec_inst.selected p (image_instances (p_frame ip) fls) ys /\ ordered p ys zs /\
      batches_of (p_batch p) (effective (p_last p)) 0 zs bs.

  (* The example has room for size images; it holds the given ones, then zeros, and counts the rest as padding. *)
  Definition example_holds (size : nat) (e : image_example) (outs : list (list N)) : Prop :=
    x_shape e = [N.of_nat size; h; w; c] /\ x_padding e = (N.of_nat size - N.of_nat (length outs))%N /\
    Forall (fun o => length o = N.to_nat (h * w * c)) outs /\
    x_values e = concat outs ++ repeat 0%N ((size - length outs) * N.to_nat (h * w * c)).

  (* The example of a batch whose images are all good. *)
  Definition full_example (fls : list (image_file * list (list byte))) (e : image_example) (b : batch Model_inst.instance) : Prop :=
    exists imgs outs, Forall2 (image_of fls) (ba_instances b) imgs /\
      Forall2 (Spec_image.delivers imdecode cv_resize ip c h w) imgs outs /\ example_holds (ba_size b) e outs.

  (* The example of a batch whose bad images are left out. *)
  Definition padded_example (fls : list (image_file * list (list byte))) (e : image_example) (b : batch Model_inst.instance) : Prop :=
    exists imgs outs, Forall2 (image_of fls) (ba_instances b) imgs /\
      images imdecode cv_resize ip c h w imgs outs /\ example_holds (ba_size b) e outs.

  Definition bad_image (fls : list (image_file * list (list byte))) (i : Model_inst.instance) : Prop :=
    exists b, image_of fls i b /\ ~ Spec_image.good imdecode cv_resize ip c h w b.
End Reading.
