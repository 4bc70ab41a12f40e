(* What should be said about bad images. *)
From Verif Require Import Common Model_csv Model_image Spec_image Model_report Model_imreport.
From Coq Require String DecimalString.
Import String.StringSyntax.
Local Open Scope string_scope.
Local Open Scope list_scope.
Local Open Scope Z_scope.

(* What is wrong with an image. *)
Inductive problem :=
| Undecodable (why : option str)       (* OpenCV cannot decode it, with its reason if it gives one *)
| Unconvertible (why : str)            (* OpenCV cannot convert it to RGB *)
| Small (rows cols : Z).               (* it is smaller than the output, with its size as cropped *)

Definition numeral (z : Z) : str := tx (DecimalString.NilEmpty.string_of_uint (N.to_uint (Z.to_N z))).

(* The sentence about the problem of an image; the output has [h] rows and [w] columns. *)
Definition sentence (h w : N) (i : item) (q : problem) : str :=
  let image := tx "the image #" ++ numeral (Z.of_nat (i_index i)) ++ tx " in the data store '" ++ i_store i ++ tx "'" in
  match q with
  | Undecodable None => tx "The image decode operation failed for " ++ image ++ tx "."
  | Undecodable (Some why) => tx "The image decode operation failed for " ++ image ++ tx " with the following exception: " ++ why
  | Unconvertible why => tx "The BGR2RGB operation failed for " ++ image ++ tx " with the following exception: " ++ why
  | Small rows cols =>
      tx "The input image dimensions (rows: " ++ numeral rows ++ tx ", cols: " ++ numeral cols ++
      tx ") are smaller than the output image dimensions (rows: " ++ numeral (Z.of_N h) ++ tx ", cols: " ++ numeral (Z.of_N w) ++
      tx ") for " ++ image ++ tx "."
  end.

(* An image with the wrong number of channels. *)
Definition channels_sentence (i : item) (n : nat) : str :=
  tx "The image #" ++ numeral (Z.of_nat (i_index i)) ++ tx " in the data store '" ++ i_store i ++ tx "' contains " ++ numeral (Z.of_nat n) ++
  tx " channels while it is expected to contain 4 channels.".

Definition skipped_sentence (batch : nat) : str :=
  tx "The example #" ++ numeral (Z.of_nat batch) ++ tx " has been skipped as it had at least one bad instance.".
Definition padded_sentence (batch bad : nat) : str :=
  tx "The example #" ++ numeral (Z.of_nat batch) ++ tx " has been padded as it had " ++ numeral (Z.of_nat bad) ++ tx " bad instance(s).".

(* The kind of the error, if bad examples are errors. *)
Definition kind (q : problem) : exn := match q with Small _ _ => Invalid_argument | _ => Invalid_instance end.

Definition faulty (q : option problem) : bool := match q with Some _ => true | None => false end.

Section Spec.
  Variable imdecode : mode -> list byte -> mat + str.
  Variable cv_resize : mat -> Z -> Z -> mat + str.
  Variable cvt_what : mat -> str.
  Variable p : params.
  Variable c h w : N.

  Notation imdecode' := (fun m buf => forget (imdecode m buf)).
  Notation cv_resize' := (fun img w h => forget (cv_resize img w h)).

  (* OpenCV can convert the colours, or need not. *)
  Definition convertible (img : mat) : Prop := p_rgb p = false \/ c = 1%N \/ m_depth img <> D_other.

  (* The image is decoded and resized. *)
  Definition prepared (bits : list byte) (img1 : mat) : Prop :=
    exists img, decodes imdecode' p c bits img /\ m_channels img = N.to_nat c /\ resizes cv_resize' p img img1.

  (* The first problem of an image, None if it has none. *)
  Inductive tells (bits : list byte) : option problem -> Prop :=
  | T_exception m buf why : mode_of c = Some m -> unframed (p_frame p) bits buf -> imdecode m buf = inr why ->
      tells bits (Some (Undecodable (Some why)))
  | T_empty m buf img : mode_of c = Some m -> unframed (p_frame p) bits buf -> imdecode m buf = inl img -> mat_empty img = true ->
      tells bits (Some (Undecodable None))
  | T_unconvertible img : prepared bits img -> ~ convertible img -> tells bits (Some (Unconvertible (cvt_what img)))
  | T_small img : prepared bits img -> convertible img -> m_rows img < Z.of_N h \/ m_cols img < Z.of_N w ->
      tells bits (Some (Small (m_rows img) (m_cols img)))
  | T_fine img : prepared bits img -> convertible img -> Z.of_N h <= m_rows img -> Z.of_N w <= m_cols img -> tells bits None.

  (* Images with the first problem of each; resizing them does not exceed the range of int. *)
  Definition told : list item -> list (option problem) -> Prop :=
    Forall2 (fun i q => moderate imdecode' p c (i_bits i) /\ tells (i_bits i) q).
  (* OpenCV and the arguments are as they should be. *)
  Definition setting : Prop := decoder_ok imdecode' /\ resizer_ok cv_resize' /\ arguments_ok p c h w.

  (* The warning about an image. *)
  Definition logged (i : item) (q : option problem) : list str :=
    match q with Some q => if p_warn p then [sentence h w i q] else [] | None => [] end.
End Spec.
