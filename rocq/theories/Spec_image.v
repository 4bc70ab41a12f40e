(* What the image reader is supposed to deliver. *)
From Verif Require Import Common Model_csv Model_image.
Import List.
Local Open Scope Z_scope.

(* ---- OpenCV ---- *)

(* A matrix has as many pixels as it says. *)
Definition well_formed (m : mat) : Prop :=
  0 <= m_rows m <= 2147483647 /\ 0 <= m_cols m <= 2147483647 /\
  Z.of_nat (length (m_pixels m)) = m_rows m /\
  Forall (fun row => Z.of_nat (length row) = m_cols m /\
                     Forall (fun p => length p = m_channels m) row) (m_pixels m).

(* cv::imdecode returns grey images of one channel and colour images of three, of 8 bit. *)
Definition decoder_ok (imdecode : mode -> list byte -> option mat) : Prop :=
  forall m buf img, imdecode m buf = Some img ->
  well_formed img /\
  match m with
  | M_gray => m_depth img = D8 /\ m_channels img = 1%nat
  | M_color => m_depth img = D8 /\ m_channels img = 3%nat
  | M_unchanged => True
  end.

(* cv::resize returns an image of the given size and the same type, or fails; it fails for a size
   that is not positive. *)
Definition resizer_ok (cv_resize : mat -> Z -> Z -> option mat) : Prop :=
  forall img w h img', well_formed img -> cv_resize img w h = Some img' ->
  well_formed img' /\ m_depth img' = m_depth img /\ m_channels img' = m_channels img /\
  m_cols img' = w /\ m_rows img' = h /\ 0 < w /\ 0 < h.

(* ---- One image ---- *)

(* A record of MXNet begins with 24 bytes that do not belong to the image. *)
Definition unframed (f : frame) (bits buf : list byte) : Prop :=
  match f with
  | F_none => buf = bits
  | F_recordio => exists head, length head = 24%nat /\ bits = head ++ buf
  end.

(* The shorter edge gets the length [n]; the longer one is scaled by the same factor. *)
Definition scaled (rows cols n w h : Z) : Prop :=
  Z.min w h = n /\
  (rows <= cols -> h = n /\ w = n * cols / rows) /\
  (cols <= rows -> w = n /\ h = n * rows / cols).

(* A window of height [h] and width [w] in the middle: the margins on both sides differ by one at
   most. *)
Definition centred (whole part at_ : Z) : Prop :=
  0 <= at_ /\ at_ + part <= whole /\ 0 <= (whole - part - at_) - at_ <= 1.

Definition pixel_at (m : mat) (y x : Z) : option pixel :=
  nth_error (nth (Z.to_nat y) (m_pixels m) []) (Z.to_nat x).

(* The samples of the window at (y, x), row by row. *)
Definition shows (m : mat) (y x h w : Z) (out : list N) : Prop :=
  exists rows : list (list pixel), out = concat (concat rows) /\
  Z.of_nat (length rows) = h /\
  Forall (fun row => Z.of_nat (length row) = w) rows /\
  forall i j, 0 <= i < h -> 0 <= j < w ->
    nth_error (nth (Z.to_nat i) rows []) (Z.to_nat j) = pixel_at m (y + i) (x + j).

(* Blue, green, red becomes red, green, blue; what follows is kept. *)
Definition rgb (p : pixel) : pixel :=
  match p with b :: g :: r :: rest => r :: g :: b :: rest | _ => p end.

Definition mode_of (c : N) : option mode :=
  match c with 1%N => Some M_gray | 3%N => Some M_color | 4%N => Some M_unchanged | _ => None end.

Section Delivery.
  Variable imdecode : mode -> list byte -> option mat.
  Variable cv_resize : mat -> Z -> Z -> option mat.
  Variable p : params.
  (* The channels, the height and the width that are asked for. *)
  Variable c h w : N.

  Definition decodes (bits : list byte) (img : mat) : Prop :=
    exists m buf, mode_of c = Some m /\ unframed (p_frame p) bits buf /\
    imdecode m buf = Some img /\ mat_empty img = false.

  Definition resizes (img img' : mat) : Prop :=
    match p_resize p with
    | None => img' = img
    | Some n => exists w' h', scaled (m_rows img) (m_cols img) (Z.of_N n) w' h' /\
                cv_resize img w' h' = Some img'
    end.

  Definition colours (img img' : mat) : Prop :=
    img' = if p_rgb p then mk_mat (m_depth img) (m_channels img) (m_rows img) (m_cols img)
                             (map (map rgb) (m_pixels img))
           else img.

  (* The instance [bits] is an image that the reader should deliver as [out]. *)
  Definition delivers (bits : list byte) (out : list N) : Prop :=
    exists img img1 img2 y x,
    decodes bits img /\ m_channels img = N.to_nat c /\
    resizes img img1 /\ colours img1 img2 /\
    centred (m_rows img2) (Z.of_N h) y /\ centred (m_cols img2) (Z.of_N w) x /\
    shows img2 y x (Z.of_N h) (Z.of_N w) out.

  Definition good (bits : list byte) : Prop := exists out, delivers bits out.

  (* Two ways to be bad: it is not an image, or it is smaller than the output. *)
  Definition undecodable (bits : list byte) : Prop :=
    exists m buf, mode_of c = Some m /\ unframed (p_frame p) bits buf /\
    match imdecode m buf with Some img => mat_empty img = true | None => True end.
  Definition too_small (bits : list byte) : Prop :=
    exists img img1, decodes bits img /\ m_channels img = N.to_nat c /\ resizes img img1 /\
    (m_rows img1 < Z.of_N h \/ m_cols img1 < Z.of_N w).

  Definition ordinary (bits : list byte) : Prop := good bits \/ undecodable bits \/ too_small bits.

  (* The images of a batch, in order, without the bad ones. *)
  Inductive images : list (list byte) -> list (list N) -> Prop :=
  | images_nil : images [] []
  | images_good bits out l outs : delivers bits out -> images l outs -> images (bits :: l) (out :: outs)
  | images_bad bits l outs : ~ good bits -> images l outs -> images (bits :: l) outs.

  (* The arguments are meaningful. *)
  Definition arguments_ok : Prop :=
    p_dims p = [c; h; w] /\ (0 < h < 2 ^ 31)%N /\ (0 < w < 2 ^ 31)%N /\
    (c = 1 \/ c = 3 \/ c = 4)%N /\ match p_resize p with Some n => (0 < n < 2 ^ 31)%N | None => True end.

  (* Resizing the image does not exceed the range of int. *)
  Definition moderate (bits : list byte) : Prop :=
    forall img n, decodes bits img -> p_resize p = Some n ->
    Z.of_N n * Z.max (m_rows img) (m_cols img) <= 2147483647.

  (* The image has the type of the output: always so with one or three channels. *)
  Definition plain (bits : list byte) : Prop :=
    c = 4%N -> p_rgb p = false /\ forall img, decodes bits img -> m_depth img = D8.
End Delivery.
