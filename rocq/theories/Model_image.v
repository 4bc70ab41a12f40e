(* Model of the image reader: decoding, resizing, converting and cropping images.
   /repo/src/mlio/image_reader.cc, whose lines are cited below, and include/mlio/image_reader.h. *)
From Verif Require Import Common Model_csv.
Import List.
Local Open Scope Z_scope.

(* ---- OpenCV, as far as the reader depends on it ---- *)

(* The element type of a cv::Mat: the depth of a sample and the number of channels.  The
   depths are those of OpenCV: CV_8U, CV_16U, CV_32F and others. *)
Inductive depth := D8 | D16 | D32f | D_other.
Definition depth_eqb (a b : depth) : bool :=
  match a, b with D8, D8 | D16, D16 | D32f, D32f | D_other, D_other => true | _, _ => false end.

(* A cv::Mat: its pixels, row by row; a pixel is the list of its samples. *)
Definition pixel := list N.
Record mat := mk_mat { m_depth : depth; m_channels : nat; m_rows : Z; m_cols : Z; m_pixels : list (list pixel) }.
(* cv::Mat::empty *)
Definition mat_empty (m : mat) : bool := (m_rows m =? 0) || (m_cols m =? 0).

(* cv::cvtColor with COLOR_BGR2RGB.  The source has 3 or 4 channels of 8 or 16 bit or float; the
   result has 3 channels.  None is a cv::Exception. *)
Definition swap_blue (p : pixel) : pixel :=
  match p with b :: g :: r :: _ => [r; g; b] | _ => p end.
Definition cvt_bgr2rgb (m : mat) : option mat :=
  match m_depth m with
  | D_other => None
  | _ =>
      if Nat.eqb (m_channels m) 3 || Nat.eqb (m_channels m) 4
      then Some (mk_mat (m_depth m) 3 (m_rows m) (m_cols m) (map (map swap_blue) (m_pixels m)))
      else None
  end.

(* cv::Mat::operator()(cv::Rect): the rectangle must lie in the matrix. *)
Definition mat_roi (m : mat) (x y w h : Z) : option mat :=
  if (0 <=? x) && (0 <=? w) && (x + w <=? m_cols m) && (0 <=? y) && (0 <=? h) && (y + h <=? m_rows m)
  then Some (mk_mat (m_depth m) (m_channels m) h w
               (map (fun row => firstn (Z.to_nat w) (skipn (Z.to_nat x) row))
                    (firstn (Z.to_nat h) (skipn (Z.to_nat y) (m_pixels m)))))
  else None.

(* The header of a matrix over memory that belongs to somebody else: cv::Mat{rows, cols, type,
   data}. *)
Record header := mk_header { d_depth : depth; d_channels : nat; d_rows : Z; d_cols : Z }.

(* cv::Mat::copyTo.  If size and type are those of the destination its memory is written,
   otherwise the destination gets new memory; what is returned is what has been written to the
   memory of the header: None if nothing.  An empty source releases the destination. *)
Definition copy_to (m : mat) (d : header) : option (list N) :=
  if mat_empty m then None
  else if depth_eqb (m_depth m) (d_depth d) && Nat.eqb (m_channels m) (d_channels d)
       && (m_rows m =? d_rows d) && (m_cols m =? d_cols d)
  then Some (concat (concat (m_pixels m)))
  else None.

(* The modes of cv::imdecode that are used. *)
Inductive mode := M_gray | M_color | M_unchanged.

(* ---- The reader ---- *)

(* include/mlio/image_reader.h:38-41 *)
Inductive frame := F_none | F_recordio.

(* include/mlio/image_reader.h:43-54 Image_reader_params, and of Data_reader_params the handling of
   bad examples and whether to warn. *)
Record params := mk_params {
  p_frame : frame;
  p_resize : option N;
  p_dims : list N;
  p_rgb : bool;
  p_bad : beh;
  p_warn : bool }.

(* A conversion to int. *)
Definition to_int (n : N) : Z :=
  let m := Z.of_N n mod 4294967296 in if m <? 2147483648 then m else m - 4294967296.
(* Signed overflow is undefined. *)
Definition int (z : Z) : res Z :=
  if (-2147483648 <=? z) && (z <=? 2147483647) then Ok z else UB.

(* image_reader.cc:43-54: the constructor; the result are the dimensions as int: channels, height, width. *)
Definition make_reader (p : params) : res (Z * Z * Z) :=
  match p_dims p with
  | [c; h; w] => Ok (to_int c, to_int h, to_int w)
  | _ => Throw Invalid_argument
  end.

(* image_reader.cc:73-85 infer_schema: shape of the attribute "value", NHWC. *)
Definition schema_shape (p : params) (batch : N) : list N :=
  [batch; nth 1 (p_dims p) 0%N; nth 2 (p_dims p) 0%N; nth 0 (p_dims p) 0%N].

(* Attribute strides: the number of elements of one row of the batch dimension. *)
Definition batch_stride (p : params) : N :=
  (nth 1 (p_dims p) 0 * nth 2 (p_dims p) 0 * nth 0 (p_dims p) 0)%N.

Section Reader.
  (* cv::imdecode and cv::resize, to a width and a height.  None is a cv::Exception. *)
  Variable imdecode : mode -> list byte -> option mat.
  Variable cv_resize : mat -> Z -> Z -> option mat.

  Variable p : params.

  Definition p_error : bool := match p_bad p with B_error => true | _ => false end.

  (* What happens to a bad image, image_reader.cc:213-230 and the like: a message if one is wanted, an exception
     if bad examples are errors, and otherwise the call returns false (None). *)
  Definition reject {A : Type} (e : exn) : res (option A) :=
    if p_error then Throw e else Ok None.

  (* image_reader.cc:238-292 decode_image; None is an empty matrix. *)
  Definition decode_image (m : mode) (buf : list byte) : res (option mat) :=
    match imdecode m buf with
    | None => reject Invalid_instance
    | Some img =>
        if mat_empty img then reject Invalid_instance
        else
          match m with
          | M_unchanged => if Nat.eqb (m_channels img) 4 then Ok (Some img) else Throw Invalid_argument
          | _ => Ok (Some img)
          end
    end.

  (* image_reader.cc:296-308: the size an image is resized to, as width and height.  (The variables new_rows and
     new_cols hold the width and the height.) *)
  Definition resize_size (rows cols : Z) (n : N) : res (Z * Z) :=
    let v := to_int n in
    if rows >? cols then
      let* a := int (v * rows) in
      if cols =? 0 then UB else Ok (v, Z.quot a cols)
    else
      let* a := int (v * cols) in
      if rows =? 0 then UB else Ok (Z.quot a rows, v).

  (* image_reader.cc:294-334 resize.  The message of 315-319 formats a string with "{2:n}", for which
     fmt::format throws fmt::format_error. *)
  Definition resize (img : mat) (n : N) : res (option mat) :=
    let* (w, h) := resize_size (m_rows img) (m_cols img) n in
    match cv_resize img w h with
    | Some img' => Ok (Some img')
    | None => if p_warn p || p_error then Throw Other_err else Ok None
    end.

  (* image_reader.cc:208-231: the conversion to RGB *)
  Definition to_rgb (img : mat) : res (option mat) :=
    if p_rgb p && negb (Nat.eqb (m_channels img) 1) then
      match cvt_bgr2rgb img with
      | Some img' => Ok (Some img')
      | None => reject Invalid_instance
      end
    else Ok (Some img).

  (* image_reader.cc:336-390 crop.  The result is None if the call returns false, and otherwise what has been
     written to the memory of [dst]. *)
  Definition crop (img : mat) (dst : header) : res (option (option (list N))) :=
    let h := d_rows dst in
    let w := d_cols dst in
    if (m_rows img <? h) || (m_cols img <? w) then reject Invalid_argument
    else
      let* dy := int (m_rows img - h) in
      let* dx := int (m_cols img - w) in
      match mat_roi img (Z.quot dx 2) (Z.quot dy 2) w h with
      | None => reject Invalid_instance
      | Some part => Ok (Some (copy_to part dst))
      end.

  (* image_reader.cc:158-167: the 24 bytes before the image in a record; memory_slice.cc:23-32 *)
  Definition payload (bits : list byte) : res (list byte) :=
    match p_frame p with
    | F_recordio => if Nat.ltb (length bits) 24 then Throw Invalid_argument else Ok (skipn 24 bits)
    | F_none => Ok bits
    end.

  (* image_reader.cc:175-195: mode and number of channels of the output *)
  Definition channel_mode (c : Z) : res (mode * nat) :=
    match c with
    | 1 => Ok (M_gray, 1%nat)
    | 3 => Ok (M_color, 3%nat)
    | 4 => Ok (M_unchanged, 4%nat)
    | _ => Throw Invalid_argument
    end.

  (* image_reader.cc:156-236 decode_core.  The result is as for [crop]. *)
  Definition decode_core (dims : Z * Z * Z) (bits : list byte) : res (option (option (list N))) :=
    let '(c, h, w) := dims in
    let* buf := payload bits in
    let* (m, ch) := channel_mode c in
    let* o := decode_image m buf in
    match o with
    | None => Ok None
    | Some img =>
        let* o := match p_resize p with Some n => resize img n | None => Ok (Some img) end in
        match o with
        | None => Ok None
        | Some img =>
            let* o := to_rgb img in
            match o with
            | None => Ok None
            | Some img => crop img (mk_header D8 ch h w)
            end
        end
    end.

  (* Writing to the memory of the tensor at an offset; beyond its end it is undefined. *)
  Definition write_at (data : list N) (at_ : nat) (bs : list N) : res (list N) :=
    if Nat.ltb (length data) (at_ + length bs) then UB
    else Ok (firstn at_ data ++ bs ++ skipn (at_ + length bs) data).

  (* image_reader.cc:99-123: the loop of decode.  [n] is num_instances_read.  None: the example is skipped. *)
  Fixpoint decode_loop (dims : Z * Z * Z) (stride : nat) (instances : list (list byte)) (n : nat) (data : list N)
      : res (option (nat * list N)) :=
    match instances with
    | [] => Ok (Some (n, data))
    | bits :: rest =>
        let* o := decode_core dims bits in
        match o with
        | Some written =>
            let* data := match written with Some bs => write_at data (n * stride) bs | None => Ok data end in
            decode_loop dims stride rest (S n) data
        | None =>
            match p_bad p with
            | B_skip | B_skip_warn => Ok None
            | B_pad | B_pad_warn => decode_loop dims stride rest n data
            | B_error => Throw Invalid_argument
            end
        end
    end.

  (* The example: its values and its padding. *)
  Record image_example := mk_example { x_shape : list N; x_values : list N; x_padding : N }.

  (* image_reader.cc:87-141 decode and 143-154 make_tensor; std::vector sets its elements to zero.  [size] is the
     size of the batch. *)
  Definition decode (instances : list (list byte)) (size : N) : res (option image_example) :=
    let* dims := make_reader p in
    let stride := N.to_nat (batch_stride p) in
    let* o := decode_loop dims stride instances 0 (repeat 0%N (N.to_nat size * stride)) in
    match o with
    | None => Ok None
    | Some (n, data) => Ok (Some (mk_example (schema_shape p size) data (size - N.of_nat n)))
    end.
End Reader.
