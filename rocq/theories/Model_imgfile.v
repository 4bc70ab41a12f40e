(* The image reader as a whole: /repo/src/mlio/image_reader.cc put together with the record reader (Model_rec), the loading of
   whole stores (Model_strm), the chain of instance readers (Model_inst) and the parallel reader (Model_par). *)
From Verif Require Import Common Model_rec Model_strm Model_inst Model_text Model_pbfile Model_csv Model_image.

(* A data store: a file as in Model_text, whether its stream can seek, and the error with which opening or reading it fails, if any. *)
Record image_file := mk_image_file { im_file : text_file; im_seekable : bool; im_error : option exn }.
Definition im_id (f : image_file) : N := tf_id (im_file f).

(* image_reader.cc:61-71 make_record_reader *)
Definition image_store (fr : frame) (f : image_file) : Model_inst.store :=
  match fr with
  | F_none => mk_store (im_id f) (Ok None)
  | F_recordio => match im_error f with Some x => mk_store (im_id f) (Throw x) | None => recordio_store (im_file f) end
  end.

(* instance.h:60-69 bits and instance.cc:37-77 load_bits_from_store.  The instance points to its store; here the store is found by its
   id.  Simplification: the result is not cached. *)
Definition load (fs : list image_file) (i : Model_inst.instance) : res (list byte) :=
  match i_bits i with
  | Some b => Ok b
  | None =>
      match find (fun f => N.eqb (im_id f) (i_store i)) fs with
      | Some f =>
          match im_error f with
          | Some x => Throw x
          | None => load_bits (S (length (tf_text (im_file f)))) (tf_in_memory (im_file f)) (im_seekable f) 1048576
                      (tf_text (im_file f)) (tf_reads (im_file f))
          end
      | None => Throw Other_err
      end
  end.

(* The images that can be loaded before the first one that cannot, and what happens there. *)
Fixpoint load_all (fs : list image_file) (is : list Model_inst.instance) : list (list byte) * res unit :=
  match is with
  | [] => ([], Ok tt)
  | i :: rest =>
      match load fs i with
      | Ok b => let (bs, e) := load_all fs rest in (b :: bs, e)
      | Throw x => ([], Throw x)
      | UB => ([], UB)
      | Fuel => ([], Fuel)
      end
  end.

(* image_reader.cc:87-141 decode with 156-236 decode_core, which begins by loading the instance (158-167). *)
Definition image_decode imdecode cv_resize (ip : params) (fs : list image_file) (b : batch Model_inst.instance) : res (option image_example) :=
  let (bs, e) := load_all fs (ba_instances b) in
  let r := Model_image.decode imdecode cv_resize ip bs (N.of_nat (ba_size b)) in
  match e with
  | Ok _ => r
  | _ => match r with Ok (Some _) => cast_err e UB | _ => r end
  end.
