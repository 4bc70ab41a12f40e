(* What the image reader says about bad images: C110. *)
From Verif Require Import Common Model_csv Model_image Spec_image Proof_image Model_report Model_pbreport Model_imreport Spec_imreport Proof_imreport Props_image.
From Coq Require Import Lia Bool.
From Coq Require String.
Import String.StringSyntax.
Local Open Scope string_scope.
Local Open Scope list_scope.
Local Open Scope Z_scope.

(* Whatever is said, batches are decoded as without it. *)
Theorem C110_verdict : forall imdecode cv_resize cvt_what roi_what p batch is size,
  snd (fst (decode_says imdecode cv_resize cvt_what roi_what p batch is size)) =
  decode (fun m buf => forget (imdecode m buf)) (fun img w h => forget (cv_resize img w h)) p (map i_bits is) size.
Proof. exact decode_returns. Qed.
Print Assumptions C110_verdict.

(* Of every image that has the right number of channels and that OpenCV can resize something can be told, and only one thing. *)
Theorem C110_told : forall imdecode cv_resize cvt_what p c h w bits, arguments_ok p c h w ->
  (p_frame p = F_recordio -> (24 <= length bits)%nat) ->
  (forall img, decodes (fun m buf => forget (imdecode m buf)) p c bits img ->
     m_channels img = N.to_nat c /\ exists img1, resizes (fun img w h => forget (cv_resize img w h)) p img img1) ->
  exists q, tells imdecode cv_resize cvt_what p c h w bits q /\ forall q', tells imdecode cv_resize cvt_what p c h w bits q' -> q' = q.
Proof.
  intros imdecode cv_resize cvt_what p c h w bits A F H.
  destruct (tells_exists imdecode cv_resize cvt_what cvt_what p c h w A bits) as (q & T).
  - destruct (p_frame p); [exists bits; reflexivity|]. exists (skipn 24 bits). exists (firstn 24 bits). specialize (F eq_refl). rewrite firstn_length, firstn_skipn. split; auto. lia.
  - intros img D. apply (H img D).
  - intros img D. apply (H img D).
  - exists q. split; auto. intros q' T'. exact (tells_fun imdecode cv_resize cvt_what cvt_what p c h w bits q' q T' T).
Qed.
Print Assumptions C110_told.

(* Good images cause no report. *)
Theorem C110_clean : forall imdecode cv_resize cvt_what roi_what p c h w batch is size,
  setting imdecode cv_resize p c h w -> told imdecode cv_resize cvt_what p c h w is (map (fun _ => None) is) -> (N.of_nat (length is) <= size)%N ->
  exists ex, decode_says imdecode cv_resize cvt_what roi_what p batch is size = ([], Ok (Some ex), None).
Proof.
  intros imdecode cv_resize cvt_what roi_what p c h w batch is size (D & R & A) T L.
  unfold decode_says. rewrite (reader_dims p c h w A), andthen_ok, (dims_stride p c h w A).
  destruct (loop_on imdecode cv_resize cvt_what roi_what p c h w D R A batch is _ T ltac:(left; apply Forall_map, Forall_forall; auto) [] 0 (repeat 0%N (N.to_nat size * N.to_nat (h * w * c)))) as (d & _ & E).
  { rewrite repeat_length. cbn [length]. apply Nat.mul_le_mono_r. lia. }
  rewrite app_nil_r in E. rewrite E. cbn [loop_says silent]. unfold andthen.
  assert (K : forall l : list item, length (filter (fun q : option problem => negb (faulty q)) (map (fun _ => None) l)) = length l) by (induction l; cbn; auto).
  assert (W : forall l : list item, report p h w l (map (fun _ => None) l) = []) by (induction l; cbn; auto).
  rewrite K, W. cbn [Nat.add app]. rewrite Nat.eqb_refl. eexists. reflexivity.
Qed.
Print Assumptions C110_clean.

(* Bad images left out: each is reported once, in the order of the dataset, by the sentence about its first problem, if warnings are on;
   and then, in the mode that warns, how many there were. *)
Theorem C110_padded : forall imdecode cv_resize cvt_what roi_what p c h w batch is qs size,
  setting imdecode cv_resize p c h w -> p_bad p = B_pad \/ p_bad p = B_pad_warn ->
  told imdecode cv_resize cvt_what p c h w is qs -> (N.of_nat (length is) <= size)%N ->
  let bad := length (filter faulty qs) in
  exists ex, decode_says imdecode cv_resize cvt_what roi_what p batch is size =
    (concat (map (fun iq => logged p h w (fst iq) (snd iq)) (combine is qs)) ++
     (if Nat.eqb bad 0 then [] else match p_bad p with B_pad_warn => [padded_sentence batch bad] | _ => [] end), Ok (Some ex), None).
Proof.
  intros imdecode cv_resize cvt_what roi_what p c h w batch is qs size (D & R & A) B T L bad.
  unfold decode_says. rewrite (reader_dims p c h w A), andthen_ok, (dims_stride p c h w A).
  destruct (loop_on imdecode cv_resize cvt_what roi_what p c h w D R A batch is qs T ltac:(right; unfold keeps_on; destruct B as [-> | ->]; auto) [] 0 (repeat 0%N (N.to_nat size * N.to_nat (h * w * c)))) as (d & _ & E).
  { rewrite repeat_length. cbn [length]. apply Nat.mul_le_mono_r. lia. }
  rewrite app_nil_r in E. rewrite E. cbn [loop_says silent]. unfold andthen. rewrite app_nil_r. cbn [Nat.add].
  assert (K : forall l : list (option problem), (length (filter (fun q => negb (faulty q)) l) + length (filter faulty l) = length l)%nat)
    by (induction l as [|[x|] l IHl]; cbn; lia).
  specialize (K qs). assert (Lq : length is = length qs) by (clear - T; unfold told in T; induction T; cbn; auto). fold bad in K.
  eexists. f_equal. f_equal. unfold report. f_equal.
  destruct (Nat.eqb_spec bad 0) as [Z0|Z0]; [replace (Nat.eqb _ _) with true by (symmetry; apply Nat.eqb_eq; lia); reflexivity|].
  replace (Nat.eqb _ _) with false by (symmetry; apply Nat.eqb_neq; lia). rewrite padded_is.
  replace (length is - length (filter (fun q => negb (faulty q)) qs))%nat with bad by lia. reflexivity.
Qed.
Print Assumptions C110_padded.

(* Otherwise the first bad image ends the example: it is reported if warnings are on; if bad examples are skipped, that is reported in the
   mode that warns; if they are errors, the error has the same text as the warning. Later images are not looked at. *)
Theorem C110_stopped : forall imdecode cv_resize cvt_what roi_what p c h w batch pre i q post size,
  setting imdecode cv_resize p c h w -> told imdecode cv_resize cvt_what p c h w pre (map (fun _ => None) pre) ->
  moderate (fun m buf => forget (imdecode m buf)) p c (i_bits i) -> tells imdecode cv_resize cvt_what p c h w (i_bits i) (Some q) ->
  (N.of_nat (length pre) < size)%N ->
  match p_bad p with
  | B_error => decode_says imdecode cv_resize cvt_what roi_what p batch (pre ++ i :: post) size =
      (logged p h w i (Some q), Throw (kind q), Some (sentence h w i q))
  | B_skip => decode_says imdecode cv_resize cvt_what roi_what p batch (pre ++ i :: post) size = (logged p h w i (Some q), Ok None, None)
  | B_skip_warn => decode_says imdecode cv_resize cvt_what roi_what p batch (pre ++ i :: post) size =
      (logged p h w i (Some q) ++ [skipped_sentence batch], Ok None, None)
  | _ => True
  end.
Proof.
  intros imdecode cv_resize cvt_what roi_what p c h w batch pre i q post size (D & R & A) T Mo Ti L.
  assert (G : p_bad p = B_error \/ p_bad p = B_skip \/ p_bad p = B_skip_warn ->
    exists d n, decode_says imdecode cv_resize cvt_what roi_what p batch (pre ++ i :: post) size =
      andthen (loop_says imdecode cv_resize cvt_what roi_what p batch (Z.of_N c, Z.of_N h, Z.of_N w) (N.to_nat (h * w * c)) (i :: post) n d) (fun o =>
      match o with
      | None => silent (Ok None)
      | Some (n, data) =>
        (if Nat.eqb (length (pre ++ i :: post)) n then [] else match p_bad p with B_pad_warn => [padded_says batch (length (pre ++ i :: post) - n)] | _ => [] end,
         Ok (Some (mk_example (schema_shape p size) data (size - N.of_nat n))), None)
      end)).
  { intros _. unfold decode_says. rewrite (reader_dims p c h w A), andthen_ok, (dims_stride p c h w A).
    destruct (loop_pre imdecode cv_resize cvt_what roi_what p c h w D R A batch pre (i :: post) 0 (repeat 0%N (N.to_nat size * N.to_nat (h * w * c))) T) as (d & E).
    { rewrite repeat_length. apply Nat.mul_le_mono_r. lia. }
    rewrite E. exists d, (length pre). reflexivity. }
  pose proof (core_tells imdecode cv_resize cvt_what roi_what p c h w D R A i (Some q) Mo Ti) as C. cbv iota beta in C.
  destruct (p_bad p) eqn:B; auto; destruct G as (d & n & ->); auto; cbn [loop_says]; rewrite C; unfold refuse, p_error; rewrite B; cbn [andthen silent];
    rewrite ?skipped_is; unfold logged; rewrite ?app_nil_r; reflexivity.
Qed.
Print Assumptions C110_stopped.

(* An image with another number of channels than the four that are asked for: an error in all modes, not logged, but truthful. *)
Theorem C110_channels : forall imdecode cv_resize cvt_what roi_what p h w batch pre i img post size,
  setting imdecode cv_resize p 4 h w -> told imdecode cv_resize cvt_what p 4 h w pre (map (fun _ => None) pre) ->
  decodes (fun m buf => forget (imdecode m buf)) p 4 (i_bits i) img -> m_channels img <> 4%nat -> (N.of_nat (length pre) < size)%N ->
  decode_says imdecode cv_resize cvt_what roi_what p batch (pre ++ i :: post) size =
    ([], Throw Invalid_argument, Some (channels_sentence i (m_channels img))).
Proof.
  intros imdecode cv_resize cvt_what roi_what p h w batch pre i img post size (D & R & A) T Dc N4 L.
  unfold decode_says. rewrite (reader_dims p 4 h w A), andthen_ok, (dims_stride p 4 h w A).
  destruct (loop_pre imdecode cv_resize cvt_what roi_what p 4 h w D R A batch pre (i :: post) 0 (repeat 0%N (N.to_nat size * N.to_nat (h * w * 4))) T) as (d & E).
  { rewrite repeat_length. apply Nat.mul_le_mono_r. lia. }
  rewrite E. cbn [loop_says]. rewrite (core_channels imdecode cv_resize cvt_what roi_what p 4 h w A i img Dc eq_refl N4). reflexivity.
Qed.
Print Assumptions C110_channels.

(* An image that OpenCV cannot resize is not reported at all, although warnings are on: another error takes the place of the report. *)
Theorem C110_resize_refuted : forall imdecode cv_resize cvt_what roi_what p c h w batch pre i img n w' h' why post size,
  setting imdecode cv_resize p c h w -> told imdecode cv_resize cvt_what p c h w pre (map (fun _ => None) pre) ->
  decodes (fun m buf => forget (imdecode m buf)) p c (i_bits i) img -> m_channels img = N.to_nat c -> p_resize p = Some n ->
  scaled (m_rows img) (m_cols img) (Z.of_N n) w' h' -> cv_resize img w' h' = inr why ->
  moderate (fun m buf => forget (imdecode m buf)) p c (i_bits i) -> p_warn p = true -> (N.of_nat (length pre) < size)%N ->
  decode_says imdecode cv_resize cvt_what roi_what p batch (pre ++ i :: post) size = ([], Throw Other_err, None).
Proof.
  intros imdecode cv_resize cvt_what roi_what p c h w batch pre i img n w' h' why post size (D & R & A) T Dc Ch Rn Sc Cv Mo Wn L.
  unfold decode_says. rewrite (reader_dims p c h w A), andthen_ok, (dims_stride p c h w A).
  destruct (loop_pre imdecode cv_resize cvt_what roi_what p c h w D R A batch pre (i :: post) 0 (repeat 0%N (N.to_nat size * N.to_nat (h * w * c))) T) as (d & E).
  { rewrite repeat_length. apply Nat.mul_le_mono_r. lia. }
  rewrite E. cbn [loop_says]. rewrite (core_unresizable imdecode cv_resize cvt_what roi_what p c h w D A i img n w' h' why Dc Ch Rn Sc Cv Mo) by (rewrite Wn; reflexivity). reflexivity.
Qed.
Print Assumptions C110_resize_refuted.

(* Examples: an image, something else, an empty image, an image that is too small. *)
Definition cv_decode (m : mode) (buf : list byte) : mat + str := match toy_decode m buf with Some x => inl x | None => inr (tx "no image") end.
Definition cv_scale (img : mat) (w h : Z) : mat + str := match toy_resize img w h with Some x => inl x | None => inr (tx "bad size") end.
Lemma cv_decode_ok : decoder_ok (fun m buf => forget (cv_decode m buf)).
Proof. intros m buf img E. apply (toy_decoder_ok m buf img). cbn in E. unfold cv_decode in E. destruct (toy_decode m buf); exact E. Qed.
Lemma cv_scale_ok : resizer_ok (fun img w h => forget (cv_scale img w h)).
Proof. intros img w h img' Wf E. apply (toy_resizer_ok img w h img' Wf). cbn in E. unfold cv_scale in E. destruct (toy_resize img w h); exact E. Qed.
Definition four (b : beh) (warn : bool) : params := mk_params F_none None [3; 1; 2]%N true b warn.
Definition shots : list item :=
  [mk_item (tx "a.rec") 8 [2; 4; 5; 0]%N; mk_item (tx "a.rec") 9 [9]%N; mk_item (tx "b.rec") 0 [0; 3; 1; 0]%N; mk_item (tx "b.rec") 1 [1; 1; 7; 0]%N].
Definition faults : list (option problem) := [None; Some (Undecodable (Some (tx "no image"))); Some (Undecodable None); Some (Small 1 1)].
Example C110_case_setting b wn : setting cv_decode cv_scale (four b wn) 3 1 2 /\ told cv_decode cv_scale (fun _ => []) (four b wn) 3 1 2 shots faults.
Proof.
  split; [split; [exact cv_decode_ok|split; [exact cv_scale_ok|unfold arguments_ok; cbn; repeat split; auto]]|].
  repeat constructor; try (intros img n _ E; discriminate E).
  - eapply T_fine; [eexists; split; [exists M_color; eexists; repeat split; reflexivity|split; reflexivity]|right; right; discriminate|cbn; lia|cbn; lia].
  - eapply (T_exception _ _ _ _ _ _ _ _ M_color); reflexivity.
  - eapply (T_empty _ _ _ _ _ _ _ _ M_color); reflexivity.
  - refine (T_small cv_decode cv_scale (fun _ => []) _ 3 1 2 _ (mk_mat D8 3 1 1 [[[7; 8; 9]]]%N) _ _ _);
      [eexists; split; [exists M_color; eexists; repeat split; reflexivity|split; reflexivity]|right; right; discriminate|right; cbn; lia].
Qed.
Example C110_case_padded : fst (fst (decode_says cv_decode cv_scale (fun _ => []) (fun _ => []) (four B_pad_warn true) 6 shots 4)) =
  [tx "The image decode operation failed for the image #9 in the data store 'a.rec' with the following exception: no image";
   tx "The image decode operation failed for the image #0 in the data store 'b.rec'.";
   tx "The input image dimensions (rows: 1, cols: 1) are smaller than the output image dimensions (rows: 1, cols: 2) for the image #1 in the data store 'b.rec'.";
   tx "The example #6 has been padded as it had 3 bad instance(s)."].
Proof. vm_compute. reflexivity. Qed.
Example C110_case_error : decode_says cv_decode cv_scale (fun _ => []) (fun _ => []) (four B_error false) 6 shots 4 =
  ([], Throw Invalid_instance, Some (tx "The image decode operation failed for the image #9 in the data store 'a.rec' with the following exception: no image")).
Proof. vm_compute. reflexivity. Qed.
(* Four channels asked for, three found; and an image that cannot be resized. *)
Example C110_case_channels :
  decode_says (fun m buf => cv_decode match m with M_unchanged => M_gray | _ => m end buf) cv_scale (fun _ => []) (fun _ => []) (mk_params F_none None [4; 1; 2]%N false B_skip true) 6 [mk_item (tx "c") 2 [2; 4; 5; 0]%N] 4 =
  ([], Throw Invalid_argument, Some (tx "The image #2 in the data store 'c' contains 1 channels while it is expected to contain 4 channels.")).
Proof. vm_compute. reflexivity. Qed.
Example C110_case_resize :
  decode_says cv_decode cv_scale (fun _ => []) (fun _ => []) (mk_params F_none (Some 200%N) [3; 1; 2]%N false B_skip_warn true) 6 [mk_item (tx "c") 2 [1; 2; 5; 0]%N] 4 =
  ([], Throw Other_err, None).
Proof. vm_compute. reflexivity. Qed.
