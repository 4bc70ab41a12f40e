(* The images that the image reader delivers. *)
From Verif Require Import Common Model_csv Model_image Spec_image Proof_image.
Import List.
Local Open Scope Z_scope.

(* C58. When an image is resized the shorter edge gets the length that is asked for and the longer one is scaled. *)
Theorem C58_resize : forall cv_resize p img n img',
  resizer_ok cv_resize -> well_formed img -> mat_empty img = false -> (0 < n < 2 ^ 31)%N ->
  resize cv_resize p img n = Ok (Some img') ->
  scaled (m_rows img) (m_cols img) (Z.of_N n) (m_cols img') (m_rows img').
Proof. exact resize_scaled. Qed.
Print Assumptions C58_resize.

(* 4 rows and 9 columns are resized so that the shorter edge is 8. *)
Definition wide : mat := mk_mat D8 3 4 9 (paint 3 4 9 (fun i j k => N.of_nat (i + j + k))).
Definition plain_params : params := mk_params F_none (Some 8%N) [3; 5; 6]%N true B_pad false.

Example C58_resize_case : well_formed wide /\ mat_empty wide = false /\ resizer_ok toy_resize /\
  exists img', resize toy_resize plain_params wide 8 = Ok (Some img') /\ m_rows img' = 8 /\ m_cols img' = 18.
Proof.
  split; [apply (paint_ok D8 3 4 9); lia|]. split; [reflexivity|]. split; [exact toy_resizer_ok|].
  eexists. split; [vm_compute; reflexivity|]. split; reflexivity.
Qed.

(* C58. The size is computed in int: resizing is undefined exactly when the longer edge times the requested length
   exceeds its range. *)
Theorem C58_resize_overflow_refuted : forall cv_resize p img n,
  well_formed img -> mat_empty img = false -> (0 < n < 2 ^ 31)%N ->
  resize cv_resize p img n = UB <-> Z.of_N n * Z.max (m_rows img) (m_cols img) > 2147483647.
Proof. exact resize_overflow. Qed.
Print Assumptions C58_resize_overflow_refuted.

Example C58_resize_overflow_case : Z.of_N 300000000 * Z.max (m_rows wide) (m_cols wide) > 2147483647.
Proof. reflexivity. Qed.

(* C58. An image of the type of the output is cropped exactly if it is at least as large as the output, to a window in
   the middle of the image; a smaller one is rejected. *)
Theorem C58_crop : forall p img c h w,
  well_formed img -> m_depth img = D8 -> m_channels img = c -> 0 < h -> 0 < w ->
  if (h <=? m_rows img) && (w <=? m_cols img) then
    exists out y x, crop p img (mk_header D8 c h w) = Ok (Some (Some out)) /\
    centred (m_rows img) h y /\ centred (m_cols img) w x /\ shows img y x h w out /\
    Z.of_nat (length out) = h * w * Z.of_nat c
  else crop p img (mk_header D8 c h w) = match p_bad p with B_error => Throw Invalid_argument | _ => Ok None end.
Proof.
  intros p img c h w Wf D C H W. destruct ((h <=? m_rows img) && (w <=? m_cols img)) eqn:B.
  - apply crop_gen; auto; lia.
  - rewrite crop_reject by lia. unfold p_error. now destruct (p_bad p).
Qed.
Print Assumptions C58_crop.

Example C58_crop_case :
  (exists out, crop plain_params wide (mk_header D8 3 3 4) = Ok (Some (Some out)) /\
     firstn 6 out = [2; 3; 4; 3; 4; 5]%N /\ length out = 36%nat) /\
  crop plain_params wide (mk_header D8 3 5 4) = Ok None.
Proof. split; [eexists; split; [vm_compute; reflexivity|split; reflexivity]|reflexivity]. Qed.

(* C72. If an example is returned, and unless four channels are asked for together with RGB or with images that do not have
   8 bits, it holds the images of the batch in order, each resized, converted and cropped, row by row, and then zeros; its
   padding is the number of the missing images, and none is missing unless bad images are padded. *)
Theorem C72_example_partial : forall imdecode cv_resize p c h w instances size ex,
  decoder_ok imdecode -> resizer_ok cv_resize -> arguments_ok p c h w ->
  Forall (plain imdecode p c) instances -> Forall (moderate imdecode p c) instances ->
  (N.of_nat (length instances) <= size)%N ->
  decode imdecode cv_resize p instances size = Ok (Some ex) ->
  exists outs, images imdecode cv_resize p c h w instances outs /\
  (match p_bad p with B_pad | B_pad_warn => True | _ => length outs = length instances end) /\
  Forall (fun o => length o = N.to_nat (h * w * c)) outs /\
  x_shape ex = [size; h; w; c] /\
  x_padding ex = (size - N.of_nat (length outs))%N /\
  x_values ex = concat outs ++ repeat 0%N (N.to_nat (size - N.of_nat (length outs)) * N.to_nat (h * w * c)).
Proof.
  intros imdecode cv_resize p c h w instances size ex D R A P M L E.
  exact (decode_ok imdecode cv_resize p c h w D R A instances size ex P M L E).
Qed.
Print Assumptions C72_example_partial.

Definition crop_params (b : beh) : params := mk_params F_none None [3; 1; 2]%N true b false.

(* An image, something else, an image that is too small, another image: a batch of five. *)
Example C72_example_case :
  let instances := [[2; 4; 5; 0]; [9]; [1; 1; 7; 0]; [1; 2; 60; 0]]%N in
  decoder_ok toy_decode /\ resizer_ok toy_resize /\ arguments_ok (crop_params B_pad) 3 1 2 /\
  Forall (plain toy_decode (crop_params B_pad) 3) instances /\
  Forall (moderate toy_decode (crop_params B_pad) 3) instances /\
  decode toy_decode toy_resize (crop_params B_pad) instances 5 =
  Ok (Some (mk_example [5; 1; 2; 3] ([17; 16; 15; 27; 26; 25] ++ [62; 61; 60; 72; 71; 70] ++ repeat 0 18) 3))%N.
Proof.
  cbv zeta. split; [exact toy_decoder_ok|]. split; [exact toy_resizer_ok|].
  split; [unfold arguments_ok; cbn; repeat split; auto|].
  split; [apply Forall_forall; intros b _ E; discriminate E|].
  split; [apply Forall_forall; intros b _ i n _ E; discriminate E|]. vm_compute. reflexivity.
Qed.

(* C72. With four channels and RGB, OpenCV's conversion yields three channels, the copy goes to new memory, and the image
   is delivered as zeros. *)
Theorem C72_transparent_refuted : exists imdecode cv_resize p bits ex out,
  decoder_ok imdecode /\ resizer_ok cv_resize /\ arguments_ok p 4 1 2 /\ p_rgb p = true /\
  delivers imdecode cv_resize p 4 1 2 bits out /\ out = [3; 2; 1; 4; 13; 12; 11; 14]%N /\
  decode imdecode cv_resize p [bits] 1 = Ok (Some ex) /\ x_padding ex = 0%N /\ x_values ex = repeat 0%N 8.
Proof.
  exists toy_decode, toy_resize, (mk_params F_none None [4; 1; 2]%N true B_error true), [1; 2; 1; 0]%N.
  eexists _, _. split; [exact toy_decoder_ok|]. split; [exact toy_resizer_ok|].
  split; [unfold arguments_ok; cbn; repeat split; auto|]. split; [reflexivity|].
  split.
  - eexists _, _, _, 0, 0. split; [exists M_unchanged; eexists; repeat split; reflexivity|].
    split; [reflexivity|]. split; [reflexivity|]. split; [reflexivity|].
    split; [unfold centred; cbn; lia|]. split; [unfold centred; cbn; lia|].
    eexists [[[3; 2; 1; 4]; [13; 12; 11; 14]]]%N. split; [reflexivity|]. split; [reflexivity|].
    split; [repeat constructor|]. intros i j I J. assert (i = 0) as -> by lia.
    assert (j = 0 \/ j = 1) as [-> | ->] by lia; reflexivity.
  - split; [reflexivity|]. split; [vm_compute; reflexivity|]. split; reflexivity.
Qed.
Print Assumptions C72_transparent_refuted.

(* C72. With four channels an image of 16 bits keeps its depth and is delivered as zeros. *)
Theorem C72_deep_refuted : exists imdecode cv_resize p bits img ex,
  decoder_ok imdecode /\ resizer_ok cv_resize /\ arguments_ok p 4 1 2 /\ p_rgb p = false /\
  decodes imdecode p 4 bits img /\ m_depth img = D16 /\ m_channels img = 4%nat /\
  m_pixels img = [[[1; 2; 3; 4]; [11; 12; 13; 14]]]%N /\
  decode imdecode cv_resize p [bits] 1 = Ok (Some ex) /\ x_padding ex = 0%N /\ x_values ex = repeat 0%N 8.
Proof.
  exists toy_decode, toy_resize, (mk_params F_none None [4; 1; 2]%N false B_error true), [1; 2; 1; 1]%N.
  eexists _, _. split; [exact toy_decoder_ok|]. split; [exact toy_resizer_ok|].
  split; [unfold arguments_ok; cbn; repeat split; auto|]. split; [reflexivity|].
  split; [exists M_unchanged; eexists; repeat split; reflexivity|].
  split; [reflexivity|]. split; [reflexivity|]. split; [reflexivity|].
  split; [vm_compute; reflexivity|]. split; reflexivity.
Qed.
Print Assumptions C72_deep_refuted.

(* C73. A batch of good images, of things that are not images and of images that are too small: if all are good an example
   is returned; otherwise the handling decides: an exception, no example, or an example without the bad ones. *)
Theorem C73_handling_partial : forall imdecode cv_resize p c h w instances size,
  decoder_ok imdecode -> resizer_ok cv_resize -> arguments_ok p c h w ->
  Forall (plain imdecode p c) instances -> Forall (moderate imdecode p c) instances ->
  Forall (ordinary imdecode cv_resize p c h w) instances ->
  (N.of_nat (length instances) <= size)%N ->
  let r := decode imdecode cv_resize p instances size in
  (Forall (good imdecode cv_resize p c h w) instances -> exists x, r = Ok (Some x)) /\
  match p_bad p with
  | B_error => ~ Forall (good imdecode cv_resize p c h w) instances ->
               r = Throw Invalid_instance \/ r = Throw Invalid_argument
  | B_skip | B_skip_warn => ~ Forall (good imdecode cv_resize p c h w) instances -> r = Ok None
  | B_pad | B_pad_warn => exists x, r = Ok (Some x)
  end.
Proof.
  intros imdecode cv_resize p c h w instances size D R A P M O L.
  exact (decode_ordinary imdecode cv_resize p c h w D R A instances size P M O L).
Qed.
Print Assumptions C73_handling_partial.

Example C73_handling_case :
  let instances := [[2; 4; 5; 0]; [9]; [1; 1; 7; 0]]%N in
  Forall (ordinary toy_decode toy_resize (crop_params B_skip) 3 1 2) [[9]; [1; 1; 7; 0]]%N /\
  decode toy_decode toy_resize (crop_params B_skip) instances 5 = Ok None /\
  decode toy_decode toy_resize (crop_params B_error) instances 5 = Throw Invalid_instance.
Proof.
  cbv zeta. split; [|split; vm_compute; reflexivity].
  constructor; [right; left|constructor; [right; right|constructor]].
  - exists M_color. eexists. repeat split; reflexivity.
  - eexists _, _. split; [exists M_color; eexists; repeat split; reflexivity|].
    split; [reflexivity|]. split; [reflexivity|]. right. reflexivity.
Qed.

(* C73. If bad images are errors, the first one that cannot be decoded is reported as an invalid instance. *)
Theorem C73_error : forall imdecode cv_resize p c h w pre bits post size,
  decoder_ok imdecode -> resizer_ok cv_resize -> arguments_ok p c h w -> p_bad p = B_error ->
  Forall (plain imdecode p c) pre -> Forall (moderate imdecode p c) pre ->
  Forall (good imdecode cv_resize p c h w) pre -> undecodable imdecode p c bits ->
  (N.of_nat (length pre) <= size)%N ->
  decode imdecode cv_resize p (pre ++ bits :: post) size = Throw Invalid_instance.
Proof.
  intros imdecode cv_resize p c h w pre bits post size D R A B P M G U L.
  apply (decode_first imdecode cv_resize p c h w D R A pre bits post size); auto.
  rewrite (core_undecodable imdecode cv_resize p c h w A bits U). unfold reject, p_error. now rewrite B.
Qed.
Print Assumptions C73_error.

Example C73_error_case : undecodable toy_decode (crop_params B_error) 3 [9%N] /\
  decode toy_decode toy_resize (crop_params B_error) [[2; 4; 5; 0]; [9]; [1; 1; 7; 0]]%N 3 = Throw Invalid_instance.
Proof. split; [exists M_color; eexists; repeat split; reflexivity|vm_compute; reflexivity]. Qed.

(* C73. But one that is too small is reported as an invalid argument. *)
Theorem C73_too_small_refuted : forall imdecode cv_resize p c h w pre bits post size,
  decoder_ok imdecode -> resizer_ok cv_resize -> arguments_ok p c h w -> p_bad p = B_error ->
  Forall (plain imdecode p c) (bits :: pre) -> Forall (moderate imdecode p c) (bits :: pre) ->
  Forall (good imdecode cv_resize p c h w) pre -> too_small imdecode cv_resize p c h w bits ->
  (N.of_nat (length pre) <= size)%N ->
  decode imdecode cv_resize p (pre ++ bits :: post) size = Throw Invalid_argument.
Proof.
  intros imdecode cv_resize p c h w pre bits post size D R A B P M G U L.
  inversion P; inversion M; subst.
  apply (decode_first imdecode cv_resize p c h w D R A pre bits post size); auto.
  rewrite (core_small imdecode cv_resize p c h w D R A bits); auto. unfold reject, p_error. now rewrite B.
Qed.
Print Assumptions C73_too_small_refuted.

Example C73_too_small_case :
  decode toy_decode toy_resize (crop_params B_error) [[2; 4; 5; 0]; [1; 1; 7; 0]]%N 3 = Throw Invalid_argument.
Proof. vm_compute. reflexivity. Qed.

(* C73. A record of fewer than 24 bytes is an exception whatever the handling of bad examples is. *)
Theorem C73_short_record_refuted : forall imdecode cv_resize p c h w pre bits post size,
  decoder_ok imdecode -> resizer_ok cv_resize -> arguments_ok p c h w ->
  p_frame p = F_recordio -> (length bits < 24)%nat ->
  Forall (plain imdecode p c) pre -> Forall (moderate imdecode p c) pre ->
  Forall (good imdecode cv_resize p c h w) pre -> (N.of_nat (length pre) <= size)%N ->
  decode imdecode cv_resize p (pre ++ bits :: post) size = Throw Invalid_argument.
Proof.
  intros imdecode cv_resize p c h w pre bits post size D R A F S P M G L.
  apply (decode_first imdecode cv_resize p c h w D R A pre bits post size); auto.
  now apply core_short.
Qed.
Print Assumptions C73_short_record_refuted.

Example C73_short_record_case :
  let p := mk_params F_recordio None [3; 1; 2]%N true B_skip false in
  decode toy_decode toy_resize p [repeat 0%N 24 ++ [2; 4; 5; 0]; repeat 0 23]%N 2 = Throw Invalid_argument /\
  decode toy_decode toy_resize p [repeat 0%N 24 ++ [2; 4; 5; 0]; repeat 0 24]%N 2 = Ok None.
Proof. split; vm_compute; reflexivity. Qed.

(* C73. So is an image without transparency when four channels are asked for. *)
Theorem C73_channels_refuted : forall imdecode cv_resize p h w pre bits img post size,
  decoder_ok imdecode -> resizer_ok cv_resize -> arguments_ok p 4 h w ->
  decodes imdecode p 4 bits img -> m_channels img <> 4%nat ->
  Forall (plain imdecode p 4) pre -> Forall (moderate imdecode p 4) pre ->
  Forall (good imdecode cv_resize p 4 h w) pre -> (N.of_nat (length pre) <= size)%N ->
  decode imdecode cv_resize p (pre ++ bits :: post) size = Throw Invalid_argument.
Proof.
  intros imdecode cv_resize p h w pre bits img post size D R A Dc C P M G L.
  apply (decode_first imdecode cv_resize p 4 h w D R A pre bits post size); auto.
  now apply (core_channels imdecode cv_resize p 4 h w A bits img).
Qed.
Print Assumptions C73_channels_refuted.

Example C73_channels_case :
  decode toy_decode toy_resize (mk_params F_none None [4; 1; 2]%N false B_skip false) [[1; 2; 5; 0]; [1; 2; 5; 2]]%N 2
  = Throw Invalid_argument.
Proof. vm_compute. reflexivity. Qed.

(* C73. If OpenCV cannot resize an image and there are warnings, the message cannot be formatted, and this is thrown
   whatever the handling is. *)
Theorem C73_resize_refuted : forall imdecode cv_resize p c h w pre bits img n w' h' post size,
  decoder_ok imdecode -> resizer_ok cv_resize -> arguments_ok p c h w ->
  decodes imdecode p c bits img -> m_channels img = N.to_nat c -> p_resize p = Some n ->
  scaled (m_rows img) (m_cols img) (Z.of_N n) w' h' -> cv_resize img w' h' = None -> p_warn p = true ->
  Forall (plain imdecode p c) pre -> Forall (moderate imdecode p c) (bits :: pre) ->
  Forall (good imdecode cv_resize p c h w) pre -> (N.of_nat (length pre) <= size)%N ->
  decode imdecode cv_resize p (pre ++ bits :: post) size = Throw Other_err.
Proof.
  intros imdecode cv_resize p c h w pre bits img n w' h' post size D R A Dc C Rn Sc Cv Wn P M G L.
  inversion M; subst.
  apply (decode_first imdecode cv_resize p c h w D R A pre bits post size); auto.
  now apply (core_resize_fails imdecode cv_resize p c h w D A bits img n w' h').
Qed.
Print Assumptions C73_resize_refuted.

Example C73_resize_case :
  let p := mk_params F_none (Some 200%N) [3; 1; 2]%N false B_skip_warn true in
  decode toy_decode toy_resize p [[2; 2; 5; 0]; [1; 2; 5; 0]]%N 2 = Throw Other_err.
Proof. vm_compute. reflexivity. Qed.

(* C73. The size of the images must have three dimensions, and the number of channels must be 1, 3 or 4. *)
Theorem C73_arguments : forall imdecode cv_resize p bits rest size ex,
  decode imdecode cv_resize p (bits :: rest) size = Ok ex ->
  exists c h w, p_dims p = [c; h; w] /\ (c < 2 ^ 31 -> c = 1 \/ c = 3 \/ c = 4)%N.
Proof.
  intros imdecode cv_resize p bits rest size ex E. unfold decode, make_reader in E.
  destruct (p_dims p) as [|c [|h [|w [|? ?]]]]; try discriminate. exists c, h, w. split; auto. intro C.
  cbn [bind decode_loop] in E. unfold decode_core in E. destruct (payload p bits); try discriminate. cbn [bind] in E.
  rewrite (to_int_small c C) in E. unfold channel_mode in E.
  destruct c as [|[[[]|[]|]|[[]|[]|]|]]; cbn in E; auto; try discriminate.
Qed.
Print Assumptions C73_arguments.

Example C73_arguments_case :
  decode toy_decode toy_resize (mk_params F_none None [2; 1; 2]%N false B_skip false) [[1; 2; 5; 0]]%N 2 = Throw Invalid_argument /\
  decode toy_decode toy_resize (mk_params F_none None [3; 1]%N false B_skip false) [[1; 2; 5; 0]]%N 2 = Throw Invalid_argument.
Proof. split; vm_compute; reflexivity. Qed.
