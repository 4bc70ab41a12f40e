(* Image datasets read to the end: C92. *)
From Coq Require Import Permutation.
From Verif Require Import Common Model_rec Spec_rec Model_inst Spec_inst Model_par Spec_par Model_text Spec_text Props_text Model_csv
  Spec_csvfile Proof_csvfile Props_csvfile Model_pbfile Spec_pbfile Proof_pbfile Model_image Spec_image Proof_image Props_image Model_imgfile Spec_imgfile Proof_imgfile.

(* In all theorems: any interleaving of the threads, any epoch, any options, with or without RecordIO framing; see
   Spec_imgfile.image_reading and Spec_imgfile.regular.  They are partial for the reasons of C58, C72 and C73. *)

(* If all images are good: once end of data has been reported, or more calls have returned than there are images, the examples are
   those of consecutive batches of the selected images: each holds its images, resized, converted and cropped, one after the other,
   then zeros. *)
Theorem C92_good_partial : forall imdecode cv_resize ip c h w (rng : Type) (seeded : rng) draw shuf size_max p fls dec M src src_end
    bytes cores np pr prefetch reads s,
  image_reading imdecode cv_resize ip c h w seeded draw shuf size_max p fls dec M src src_end ->
  graph_params cores np pr = (prefetch, reads) -> 1 <= cores ->
  reachable dec bytes src src_end prefetch reads s ->
  regular imdecode cv_resize ip c h w fls ->
  Forall (Spec_image.good imdecode cv_resize ip c h w) (concat (map snd fls)) ->
  In O_end (log s) \/ length (concat (map snd fls)) < length (log s) ->
  exists bs, image_batches ip p fls bs /\ Forall2 (full_example imdecode cv_resize ip c h w fls) (delivered (log s)) bs.
Proof. intros. eapply img_good; eassumption. Qed.
Print Assumptions C92_good_partial.

(* Without options that select or shuffle: the images of all files, each once, in order. *)
Theorem C92_all_images_partial : forall imdecode cv_resize ip c h w (rng : Type) (seeded : rng) draw shuf size_max p fls dec M src src_end
    bytes cores np pr prefetch reads s,
  image_reading imdecode cv_resize ip c h w seeded draw shuf size_max p fls dec M src src_end ->
  graph_params cores np pr = (prefetch, reads) -> 1 <= cores ->
  reachable dec bytes src src_end prefetch reads s ->
  regular imdecode cv_resize ip c h w fls ->
  Forall (Spec_image.good imdecode cv_resize ip c h w) (concat (map snd fls)) ->
  p_skip p = 0 -> p_take p = None -> p_num_shards p <= 1 -> p_ratio p = None -> p_shuffle p = false ->
  p_last p <> last_drop -> p_last p <> last_drop_warn ->
  In O_end (log s) \/ length (concat (map snd fls)) < length (log s) ->
  exists outss, Forall2 (Spec_image.delivers imdecode cv_resize ip c h w) (concat (map snd fls)) (concat outss) /\
    Forall2 (fun e outs => exists size, length outs <= size <= p_batch p /\ example_holds c h w size e outs) (delivered (log s)) outss.
Proof. intros. eapply img_all; eassumption. Qed.
Print Assumptions C92_all_images_partial.

(* If bad images are padded: the examples hold the good images of their batches in order, and the others are counted as padding. *)
Theorem C92_pad_partial : forall imdecode cv_resize ip c h w (rng : Type) (seeded : rng) draw shuf size_max p fls dec M src src_end
    bytes cores np pr prefetch reads s,
  image_reading imdecode cv_resize ip c h w seeded draw shuf size_max p fls dec M src src_end ->
  graph_params cores np pr = (prefetch, reads) -> 1 <= cores ->
  reachable dec bytes src src_end prefetch reads s ->
  regular imdecode cv_resize ip c h w fls -> p_bad ip = B_pad \/ p_bad ip = B_pad_warn ->
  In O_end (log s) \/ length (concat (map snd fls)) < length (log s) ->
  exists bs, image_batches ip p fls bs /\ Forall2 (padded_example imdecode cv_resize ip c h w fls) (delivered (log s)) bs.
Proof. intros. eapply img_pad; eassumption. Qed.
Print Assumptions C92_pad_partial.

(* If batches with bad images are skipped: the examples are those of the other batches. *)
Theorem C92_skip_partial : forall imdecode cv_resize ip c h w (rng : Type) (seeded : rng) draw shuf size_max p fls dec M src src_end
    bytes cores np pr prefetch reads s,
  image_reading imdecode cv_resize ip c h w seeded draw shuf size_max p fls dec M src src_end ->
  graph_params cores np pr = (prefetch, reads) -> 1 <= cores ->
  reachable dec bytes src src_end prefetch reads s ->
  regular imdecode cv_resize ip c h w fls -> p_bad ip = B_skip \/ p_bad ip = B_skip_warn ->
  In O_end (log s) \/ length (concat (map snd fls)) < length (log s) ->
  exists bs cs, image_batches ip p fls bs /\ spared (bad_image imdecode cv_resize ip c h w fls) bs cs /\
    Forall2 (full_example imdecode cv_resize ip c h w fls) (delivered (log s)) cs.
Proof. intros. eapply img_skip; eassumption. Qed.
Print Assumptions C92_skip_partial.

(* If bad images are errors and end of data has been reported, all images of all batches were good and have been delivered. *)
Theorem C92_error_partial : forall imdecode cv_resize ip c h w (rng : Type) (seeded : rng) draw shuf size_max p fls dec M src src_end
    bytes cores np pr prefetch reads s,
  image_reading imdecode cv_resize ip c h w seeded draw shuf size_max p fls dec M src src_end ->
  graph_params cores np pr = (prefetch, reads) -> 1 <= cores ->
  reachable dec bytes src src_end prefetch reads s ->
  regular imdecode cv_resize ip c h w fls -> p_bad ip = B_error -> In O_end (log s) ->
  exists bs, image_batches ip p fls bs /\ Forall2 (full_example imdecode cv_resize ip c h w fls) (delivered (log s)) bs.
Proof. intros. eapply img_error; eassumption. Qed.
Print Assumptions C92_error_partial.

(* Unless batches are skipped, end of data is reported only if every file of which an instance was selected could be read; images may be of any
   kind here. *)
Theorem C92_unreadable : forall imdecode cv_resize ip c h w (rng : Type) (seeded : rng) draw shuf size_max p fls dec M src src_end
    bytes cores np pr prefetch reads s,
  image_reading imdecode cv_resize ip c h w seeded draw shuf size_max p fls dec M src src_end ->
  graph_params cores np pr = (prefetch, reads) -> 1 <= cores ->
  reachable dec bytes src src_end prefetch reads s ->
  p_bad ip <> B_skip -> p_bad ip <> B_skip_warn -> In O_end (log s) ->
  exists bs, image_batches ip p fls bs /\
    Forall (fun b => Forall (fun i => exists f l, In (f, l) fls /\ im_id f = i_store i /\ readable f) (ba_instances b)) bs.
Proof. intros. eapply img_unreadable; eassumption. Qed.
Print Assumptions C92_unreadable.

(* ---------------- a case ---------------- *)

(* Three files, each an image of the toy format of Props_image; the second one holds the bytes x. *)
Definition img_fls (x : list byte) (err : option exn) : list (image_file * list (list byte)) :=
  [(mk_image_file (mk_text_file 7 [2; 4; 5; 0]%N false [3; 1] 5%N) true None, [[2; 4; 5; 0]%N]);
   (mk_image_file (mk_text_file 8 x false [] 5%N) false err, [x]);
   (mk_image_file (mk_text_file 9 [1; 2; 60; 0]%N true [] 5%N) true None, [[1; 2; 60; 0]%N])].
Definition whole (d : N) : Model_inst.instance := mk_instance d 0 None.
Definition img_batches : list (batch Model_inst.instance) := [mk_batch 0 [whole 7; whole 8] 2; mk_batch 1 [whole 9] 2].
Definition img_dec (ip : params) (fls : list (image_file * list (list byte))) (b : batch Model_inst.instance) : dres image_example :=
  dres_of (image_decode toy_decode toy_resize ip (map fst fls) b).

Lemma img_case b x err : exists M, image_reading toy_decode toy_resize (crop_params b) 3 1 2 0 the_draw the_shuf 1000 the_params (img_fls x err)
  (img_dec (crop_params b) (img_fls x err)) M (fun _ => img_batches) (fun _ => None).
Proof.
  assert (HF : Forall (fun fl => image_source (p_frame (crop_params b)) (fst fl) (snd fl)) (img_fls x err)).
  { constructor; [split; [reflexivity|right; right; right; discriminate]|]. constructor; [split; [reflexivity|right; right; left; reflexivity]|].
    constructor; [split; [reflexivity|right; left; reflexivity]|constructor]. }
  eexists. split; [exact toy_decoder_ok|]. split; [exact toy_resizer_ok|]. split; [unfold arguments_ok; cbn; repeat split; auto|].
  split; [exact HF|]. split.
  { cbn [img_fls map fst im_id im_file tf_id]. repeat (constructor; [cbn; intuition discriminate|]). constructor. }
  split; [reflexivity|]. split; [discriminate|]. split; [intros n g Hn; exact Hn|]. split; [intros; apply Permutation_refl|].
  split; [apply Nat.ltb_lt; reflexivity|]. split; [cbn; lia|]. split; [|reflexivity].
  eapply (fed_plain 0 the_draw the_shuf 1000 the_params _ _ _ _ (image_stores _ (img_fls x err) HF));
    [reflexivity|reflexivity|reflexivity|cbn; lia|reflexivity|reflexivity|intros n g Hn; exact Hn|intros; apply Permutation_refl| |cbn; lia|discriminate|].
  - apply Nat.ltb_lt. reflexivity.
  - cbn [img_fls map concat app]. apply (ba_full 2 last_pad 0 [_; _] [_]); [reflexivity|].
    apply ba_last; [discriminate|cbn; lia|discriminate|discriminate|reflexivity].
Qed.

Lemma img_args b : arguments_ok (crop_params b) 3 1 2.
Proof. unfold arguments_ok. cbn. repeat split; auto. Qed.
Lemma img_plain b x : plain toy_decode (crop_params b) 3 x.
Proof. intro E. discriminate E. Qed.
Lemma img_moderate b x : moderate toy_decode (crop_params b) 3 x.
Proof. intros i n _ E. discriminate E. Qed.
Lemma img_toy_good b x o : decode_core toy_decode toy_resize (crop_params b) (3, 1, 2)%Z x = Ok (Some o) ->
  Spec_image.good toy_decode toy_resize (crop_params b) 3 1 2 x.
Proof.
  intro E. destruct (core_some toy_decode toy_resize (crop_params b) 3 1 2 toy_decoder_ok toy_resizer_ok (img_args b) x o
    (img_plain b x) (img_moderate b x) E) as (out & _ & D & _). now exists out.
Qed.

Lemma img_regular b x : x = [1; 3; 20; 0]%N \/ x = [9]%N -> regular toy_decode toy_resize (crop_params b) 3 1 2 (img_fls x None).
Proof.
  intro Hx. split; [repeat constructor|]. cbn [img_fls map snd concat app].
  constructor; [|constructor; [|constructor; [|constructor]]]; (split; [apply img_plain|]; split; [apply img_moderate|]).
  - left. eapply img_toy_good. vm_compute. reflexivity.
  - destruct Hx as [-> | ->]; [left; eapply img_toy_good; vm_compute; reflexivity|].
    right. left. exists M_color. eexists. repeat split; reflexivity.
  - left. eapply img_toy_good. vm_compute. reflexivity.
Qed.

(* All images good; then a bad one, with padding, skipping and errors; then a file that cannot be read. *)
Definition img_run (ip : params) (fls : list (image_file * list (list byte))) : option (list (@out image_example)) :=
  option_map log (exec (img_dec ip fls) (fun _ => 1) (fun _ => img_batches) (fun _ => None) 2 2 (init 0) csv_run).
Example C92_case :
  (exists M s, image_reading toy_decode toy_resize (crop_params B_error) 3 1 2 0 the_draw the_shuf 1000 the_params (img_fls [1; 3; 20; 0]%N None)
      (img_dec (crop_params B_error) (img_fls [1; 3; 20; 0]%N None)) M (fun _ => img_batches) (fun _ => None) /\
    reachable (img_dec (crop_params B_error) (img_fls [1; 3; 20; 0]%N None)) (fun _ => 1) (fun _ => img_batches) (fun _ => None) 2 2 s /\
    regular toy_decode toy_resize (crop_params B_error) 3 1 2 (img_fls [1; 3; 20; 0]%N None) /\
    log s = [O_example (mk_example [2; 1; 2; 3] [17; 16; 15; 27; 26; 25; 22; 21; 20; 32; 31; 30] 0)%N;
             O_example (mk_example [2; 1; 2; 3] [62; 61; 60; 72; 71; 70; 0; 0; 0; 0; 0; 0] 1)%N; O_end]) /\
  Forall (Spec_image.good toy_decode toy_resize (crop_params B_error) 3 1 2) (concat (map snd (img_fls [1; 3; 20; 0]%N None))) /\
  (forall b, regular toy_decode toy_resize (crop_params b) 3 1 2 (img_fls [9]%N None)) /\
  img_run (crop_params B_pad) (img_fls [9]%N None) =
    Some [O_example (mk_example [2; 1; 2; 3] [17; 16; 15; 27; 26; 25; 0; 0; 0; 0; 0; 0] 1)%N;
          O_example (mk_example [2; 1; 2; 3] [62; 61; 60; 72; 71; 70; 0; 0; 0; 0; 0; 0] 1)%N; O_end] /\
  sequential (img_dec (crop_params B_skip) (img_fls [9]%N None)) img_batches =
    [mk_example [2; 1; 2; 3] [62; 61; 60; 72; 71; 70; 0; 0; 0; 0; 0; 0] 1]%N /\
  map (img_dec (crop_params B_error) (img_fls [9]%N None)) [mk_batch 0 [whole 7; whole 8] 2] = [D_fail Invalid_instance] /\
  map (img_dec (crop_params B_pad) (img_fls [] (Some System_err))) [mk_batch 0 [whole 7; whole 8] 2] = [D_fail System_err].
Proof.
  split; [|split; [|split; [|repeat split; vm_compute; reflexivity]]].
  - destruct (img_case B_error [1; 3; 20; 0]%N None) as (M & HM). exists M. eexists. split; [exact HM|].
    split; [exists csv_run; vm_compute; reflexivity|]. split; [apply img_regular; auto|reflexivity].
  - cbn [img_fls map snd concat app]. repeat (apply Forall_cons; [eapply img_toy_good; vm_compute; reflexivity|]). constructor.
  - intro b. apply img_regular. auto.
Qed.

(* With RecordIO framing: the 24 bytes before each image are not part of it. *)
Definition framed : params := mk_params F_recordio None [3; 1; 2]%N true B_pad false.
Definition img_rio : list (rec * list byte) :=
  [(mk_rec (repeat 0%N 24 ++ [2; 4; 5; 0]%N) kComplete, []); (mk_rec (repeat 0%N 24 ++ [1; 2; 60; 0]%N) kComplete, [])].
Definition rio_file : image_file :=
  mk_image_file (mk_text_file 7 (flat_map (fun x => rio_encode1 (kind (fst x)) (Model_rec.payload (fst x)) (snd x)) img_rio) false [3; 1] 5%N) true None.
Example C92_framed_case :
  image_source F_recordio rio_file (map (fun x => Model_rec.payload (fst x)) img_rio) /\
  image_decode toy_decode toy_resize framed [rio_file]
    (mk_batch 0 (Spec_inst.numbered 7 (map (fun x => Model_rec.payload (fst x)) img_rio)) 2) =
  Ok (Some (mk_example [2; 1; 2; 3] [17; 16; 15; 27; 26; 25; 62; 61; 60; 72; 71; 70] 0))%N.
Proof.
  split; [|vm_compute; reflexivity]. split; [reflexivity|]. split; [reflexivity|]. exists img_rio. split; [reflexivity|].
  split; [repeat constructor; vm_compute; auto|]. cbn [map fst img_rio]. repeat (apply g_one; [reflexivity|]). constructor.
Qed.
