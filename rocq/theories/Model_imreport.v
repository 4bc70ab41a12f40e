(* What the image reader says about bad images: warnings and the texts of errors. src/mlio/image_reader.cc. *)
From Verif Require Import Common Model_csv Model_image Model_report Model_pbreport.
From Coq Require String.
Import String.StringSyntax.
Local Open Scope string_scope.
Local Open Scope Z_scope.

(* A number as fmt writes it ({:n} in the "C" locale). *)
Definition signed (z : Z) : str := if z <? 0 then (tx "-" ++ dec (- z))%list else dec z.

(* An instance: the identifier of its data store, its index and its bits; include/mlio/instance.h:33-69. *)
Record item := mk_item { i_store : str; i_index : nat; i_bits : list byte }.

(* OpenCV with the texts of its exceptions, and without. *)
Definition forget {A : Type} (x : A + str) : option A := match x with inl a => Some a | inr _ => None end.

Section Report.
  (* cv::imdecode and cv::resize return a matrix or throw; the texts of the exceptions of cv::cvtColor and cv::Mat::operator(). *)
  Variable imdecode : mode -> list byte -> mat + str.
  Variable cv_resize : mat -> Z -> Z -> mat + str.
  Variable cvt_what roi_what : mat -> str.
  Variable p : params.

  (* image_reader.cc:246-250, with the arguments in the order of the code. *)
  Definition decode_threw (i : item) (what : str) : str :=
    format "The image decode operation failed for the image #{1:n} in the data store '{0}' with the following exception: {2}"
      [i_store i; dec (Z.of_nat (i_index i)); what].
  (* image_reader.cc:266-269 *)
  Definition decode_failed (i : item) : str :=
    format "The image decode operation failed for the image #{1:n} in the data store '{0}'." [i_store i; dec (Z.of_nat (i_index i))].
  (* image_reader.cc:284-288 *)
  Definition wrong_channels (i : item) (n : nat) : str :=
    format "The image #{1:n} in the data store '{0}' contains {2:n} channels while it is expected to contain 4 channels."
      [i_store i; dec (Z.of_nat (i_index i)); dec (Z.of_nat n)].
  (* image_reader.cc:214-218 *)
  Definition rgb_threw (i : item) (what : str) : str :=
    format "The BGR2RGB operation failed for the image #{1:n} in the data store '{0}' with the following exception: {2}"
      [i_store i; dec (Z.of_nat (i_index i)); what].
  (* image_reader.cc:340-347 *)
  Definition smaller (i : item) (rows cols h w : Z) : str :=
    format "The input image dimensions (rows: {2:n}, cols: {3:n}) are smaller than the output image dimensions (rows: {4:n}, cols: {5:n}) for the image #{1:n} in the data store '{0}'."
      [i_store i; dec (Z.of_nat (i_index i)); signed rows; signed cols; signed h; signed w].
  (* image_reader.cc:371-375 *)
  Definition crop_threw (i : item) (what : str) : str :=
    format "The image crop operation failed for the image #{1:n} in the data store '{0}' with the following exception: {2}"
      [i_store i; dec (Z.of_nat (i_index i)); what].
  (* image_reader.cc:192-194 *)
  Definition unsupported (c : Z) : str :=
    format "The specified image dimensions have an unsupported number of channels ({0:n})." [signed c].

  (* What a bad image leads to; image_reader.cc:245-260 and the like. *)
  Definition refuse {A : Type} (m : str) (e : exn) : said (option A) :=
    (if p_warn p then [m] else [], if p_error p then Throw e else Ok None, if p_error p then Some m else None).
  (* An exception with a text that is not logged. *)
  Definition fails {A : Type} (m : str) (e : exn) : said A := ([], Throw e, Some m).

  (* image_reader.cc:238-292 *)
  Definition decode_image_says (i : item) (m : mode) (buf : list byte) : said (option mat) :=
    match imdecode m buf with
    | inr what => refuse (decode_threw i what) Invalid_instance
    | inl img =>
        if mat_empty img then refuse (decode_failed i) Invalid_instance
        else
          match m with
          | M_unchanged =>
              if Nat.eqb (m_channels img) 4 then silent (Ok (Some img)) else fails (wrong_channels i (m_channels img)) Invalid_argument
          | _ => silent (Ok (Some img))
          end
    end.

  (* image_reader.cc:294-334.  Formatting the message throws fmt::format_error, whose text is not modelled. *)
  Definition resize_says (i : item) (img : mat) (n : N) : said (option mat) :=
    andthen (silent (resize_size (m_rows img) (m_cols img) n)) (fun '(w, h) =>
      match cv_resize img w h with
      | inl img' => silent (Ok (Some img'))
      | inr what => silent (if p_warn p || p_error p then Throw Other_err else Ok None)
      end).

  (* image_reader.cc:208-231 *)
  Definition rgb_says (i : item) (img : mat) : said (option mat) :=
    if p_rgb p && negb (Nat.eqb (m_channels img) 1) then
      match cvt_bgr2rgb img with
      | Some img' => silent (Ok (Some img'))
      | None => refuse (rgb_threw i (cvt_what img)) Invalid_instance
      end
    else silent (Ok (Some img)).

  (* image_reader.cc:336-390 *)
  Definition crop_says (i : item) (img : mat) (dst : header) : said (option (option (list N))) :=
    let h := d_rows dst in
    let w := d_cols dst in
    if (m_rows img <? h) || (m_cols img <? w) then refuse (smaller i (m_rows img) (m_cols img) h w) Invalid_argument
    else
      andthen (silent (int (m_rows img - h))) (fun dy =>
      andthen (silent (int (m_cols img - w))) (fun dx =>
      match mat_roi img (Z.quot dx 2) (Z.quot dy 2) w h with
      | None => refuse (crop_threw i (roi_what img)) Invalid_instance
      | Some part => silent (Ok (Some (copy_to part dst)))
      end)).

  (* image_reader.cc:156-236.  A record that is too short: memory_slice.cc:25-27. *)
  Definition core_says (dims : Z * Z * Z) (i : item) : said (option (option (list N))) :=
    let '(c, h, w) := dims in
    andthen (match payload p (i_bits i) with Throw e => fails (tx "The specified range is invalid.") e | r => silent r end) (fun buf =>
    andthen (match channel_mode c with Throw e => fails (unsupported c) e | r => silent r end) (fun '(m, ch) =>
    andthen (decode_image_says i m buf) (fun o =>
    match o with
    | None => silent (Ok None)
    | Some img =>
        andthen (match p_resize p with Some n => resize_says i img n | None => silent (Ok (Some img)) end) (fun o =>
        match o with
        | None => silent (Ok None)
        | Some img =>
            andthen (rgb_says i img) (fun o =>
            match o with
            | None => silent (Ok None)
            | Some img => crop_says i img (mk_header D8 ch h w)
            end)
        end)
    end))).

  (* image_reader.cc:112-114 and 127-129 *)
  Definition skipped_says (batch : nat) : str :=
    format "The example #{0:n} has been skipped as it had at least one bad instance." [dec (Z.of_nat batch)].
  Definition padded_says (batch bad : nat) : str :=
    format "The example #{0:n} has been padded as it had {1:n} bad instance(s)." [dec (Z.of_nat batch); dec (Z.of_nat bad)].

  (* image_reader.cc:99-123 *)
  Fixpoint loop_says (batch : nat) (dims : Z * Z * Z) (stride : nat) (is : list item) (n : nat) (data : list N) : said (option (nat * list N)) :=
    match is with
    | [] => silent (Ok (Some (n, data)))
    | i :: rest =>
        andthen (core_says dims i) (fun o =>
        match o with
        | Some written =>
            andthen (silent (match written with Some bs => write_at data (n * stride) bs | None => Ok data end)) (fun data =>
            loop_says batch dims stride rest (S n) data)
        | None =>
            match p_bad p with
            | B_skip => silent (Ok None)
            | B_skip_warn => ([skipped_says batch], Ok None, None)
            | B_pad | B_pad_warn => loop_says batch dims stride rest n data
            | B_error => fails (tx "The specified bad example handling is invalid.") Invalid_argument
            end
        end)
    end.

  (* image_reader.cc:87-141; [batch] is the index of the batch. The text of the exception of the constructor is at 48. *)
  Definition decode_says (batch : nat) (is : list item) (size : N) : said (option image_example) :=
    andthen (match make_reader p with Throw e => fails (tx "The dimensions of the output image must be entered in (channels, height, width) format.") e | r => silent r end) (fun dims =>
    let stride := N.to_nat (batch_stride p) in
    andthen (loop_says batch dims stride is 0 (repeat 0%N (N.to_nat size * stride))) (fun o =>
    match o with
    | None => silent (Ok None)
    | Some (n, data) =>
        (if Nat.eqb (length is) n then [] else match p_bad p with B_pad_warn => [padded_says batch (length is - n)] | _ => [] end,
         Ok (Some (mk_example (schema_shape p size) data (size - N.of_nat n))), None)
    end)).
End Report.
