(* Whole readers over files of one format: from the bytes of the files and the options to the examples that the calls return. *)
From Coq Require Import Permutation Sorted.
From Verif Require Import Common Spec_csvtok Model_rec Spec_rec Model_inst Spec_inst Model_par Spec_par Model_text Spec_text Model_num Model_csv Spec_csv
  Model_csvfile Spec_csvfile Model_whole Spec_whole.
From Verif Require Model_tsr Model_pb Spec_pb Model_pbfile Spec_pbfile Model_image Spec_image Model_imgfile Spec_imgfile.

(* What holds of the options of every reader and of the machine (random numbers, sizes), for n instances. *)
Definition reader_options {rng} (draw : nat -> rng -> nat * rng) (shuf : list instance -> rng -> list instance * rng) (size_max : nat)
    (p : rd_params) (n : nat) : Prop :=
  (forall r, p_ratio p = Some r -> float_ratio r) /\
  (forall w g, 0 < w -> fst (draw w g) < w) /\ (forall l g, Permutation (fst (shuf l g)) l) /\ n < size_max /\ 0 < p_batch p.

(* The reader's first instance, when the schema is inferred in the state w. *)
Definition looks_at {E} {M : machine instance} (w : wst E M) (i : instance) : Prop :=
  w_schema w = false /\ pc (w_par w) = c_idle /\ fst (b_peek M (snd (w_reader w))) = Ok (Some i).

(* The run in which the schema was inferred from the first instance i, and that went on to the state w. *)
Definition run_from {E} (M : machine instance) size last (dec : batch instance -> dres E) bytes prefetch reads (i : instance) (w : wst E M) : Prop :=
  exists l1 w0 l2, wexec M size last dec bytes prefetch reads (w_init M) l1 = Ok (Some w0) /\ looks_at w0 i /\
    wexec M size last dec bytes prefetch reads w0 (W_schema true :: l2) = Ok (Some w).

(* i is the first one of the selected instances of xs in an order asked for. *)
Definition first_of (p : rd_params) (xs : list instance) (i : instance) : Prop :=
  exists ys zs, Spec_inst.selected p xs ys /\ ordered p ys (i :: zs).

(* ---------------- CSV ---------------- *)

Section Csv.
  Context (F : Type) (atof atod : list byte -> option F) (is_inf : F -> bool) (qnan fzero : F).
  Context (cp : csv_params) (rp : csv_rparams) (fls : list (text_file * list str)).

  (* A CSV reader over the files fls (each with its rows): Spec_csvfile.csv_reading, without what the background thread reads. *)
  Definition csv_dataset {rng} (seeded : rng) draw shuf size_max (p : rd_params) M : Prop :=
    Forall (fun fl => csv_file rp (fst fl) (snd fl)) fls /\
    (forall h, p_header cp = Some h -> Forall (proper cp h) (map snd fls)) /\
    (exists r out, csv_session F atod is_inf qnan cp (map (fun fl => csv_rows rp (fst fl)) fls) r (length fls) out /\
       make_instance_reader seeded draw shuf size_max p (csv_stores fls out) = Ok M) /\
    reader_options draw shuf size_max p (length (csv_instances cp fls)).

  (* dec is what decoding batches of up to n instances with the columns cols gives (one of the outcomes of Model_csv.decode). *)
  Definition csv_decoding (n : nat) cols (dec : batch instance -> dres (list (list (Model_num.val F)) * nat)) : Prop :=
    forall b, length (ba_instances b) <= ba_size b -> ba_size b <= n ->
      exists out, decode F atof atod is_inf qnan fzero cp cols (map Model_text.bits (ba_instances b)) (ba_size b) out /\ dec b = dres_of out.

  (* The data rows of the files. *)
  Definition data_rows : list str := concat (without_headers cp 0 (map snd fls)).

  (* The reader has opened the first j files since it was made or reset; it has not tried to infer its schema. *)
  Inductive csv_new : reader -> nat -> Prop :=
  | Cn_new : csv_new (new_reader cp) 0
  | Cn_open r j fl r' rows : csv_new r j -> nth_error fls j = Some fl -> open_store cp r (csv_rows rp (fst fl)) = (r', Ok rows) -> csv_new r' (S j)
  | Cn_reset r j : csv_new r j -> csv_new (csv_reset r) 0.
End Csv.

(* The column names known before the first row is looked at: the given ones, or else those in the header of the first file. *)
Definition known_names (cp : csv_params) (fls : list (text_file * list str)) (names : list str) : Prop :=
  match p_names cp, p_header cp with
  | [], Some h => exists header fs, (exists f rest, fls = f :: rest /\ nth_error (snd f) h = Some header) /\
      fields_of cp header fs /\ names = map (fun f => p_prefix cp ++ fst f) fs
  | given, _ => names = given
  end.

Section Table.
  Context (F : Type) (atof atod : list byte -> option F) (is_inf : F -> bool) (qnan : F) (cp : csv_params).

  (* attrs are the features and types that the row text leads to when known are the names known before: names are the names of all
     columns, and l lists the columns that take part (Spec_csv.selection). *)
  Definition row_schema (known : list str) (text : str) (names : list str) (l : list nat) (attrs : list attr) : Prop :=
    exists fs, fields_of cp text fs /\ names = names_for cp known (length fs) /\ length names = length fs /\
      selection cp names l /\ length attrs = length l /\ NoDup (map fst attrs) /\
      forall k j, nth_error l k = Some j ->
        exists f n a plain d, nth_error fs j = Some f /\ nth_error names j = Some n /\ nth_error attrs k = Some (a, d) /\
          (p_dedupe cp = false -> a = n) /\
          plain_type F atod is_inf qnan cp (fst f) plain /\ column_type cp names j n plain d.

  (* vs are the values of the row text under these features: it has as many fields as there are columns, and each value is the parsed
     field of its column; fields that were cut count only if that is allowed. *)
  Definition row_values (names : list str) (l : list nat) (attrs : list attr) (text : str) (vs : list (Model_num.val F)) : Prop :=
    exists fs, fields_of cp text fs /\ length fs = length names /\ length vs = length attrs /\
      forall k j a d, nth_error l k = Some j -> nth_error attrs k = Some (a, d) ->
        exists f v, nth_error fs j = Some f /\ nth_error vs k = Some v /\
          ~ (snd f = true /\ p_mfl cp = treat_as_bad) /\
          parse_cell F atof atod is_inf qnan d (p_nans cp) (p_base cp) (fst f) = Ok (P_ok v).

  (* vss are the values of those of the rows that have values. *)
  Inductive kept_rows (names : list str) (l : list nat) (attrs : list attr) : list str -> list (list (Model_num.val F)) -> Prop :=
  | kr_nil : kept_rows names l attrs [] []
  | kr_good t ts vs vss : row_values names l attrs t vs -> kept_rows names l attrs ts vss -> kept_rows names l attrs (t :: ts) (vs :: vss)
  | kr_bad t ts vss : (forall vs, ~ row_values names l attrs t vs) -> kept_rows names l attrs ts vss -> kept_rows names l attrs (t :: ts) vss.

  (* The table has one column per feature; its first rows are vss. *)
  Definition table_of (attrs : list attr) (T vss : list (list (Model_num.val F))) : Prop :=
    length T = length attrs /\ forall i vs, nth_error vss i = Some vs -> forall k, k < length attrs -> elem T k i = nth_error vs k.

  (* es are examples of the selected instances of xs, in the order asked for, each once: as Spec_csvfile.delivers, by features. *)
  Definition delivers_rows (p : rd_params) names l attrs (xs : list instance) (es : list (list (list (Model_num.val F)) * nat)) : Prop :=
    exists ys zs rest vsss, Spec_inst.selected p xs ys /\ ordered p ys (zs ++ rest) /\
      length rest < p_batch p /\ (rest = [] \/ p_last p = last_drop \/ p_last p = last_drop_warn) /\
      Forall2 (row_values names l attrs) (map Model_text.bits zs) (concat vsss) /\
      Forall2 (fun e vss => table_of attrs (fst e) vss /\ vss <> [] /\
        snd e = match p_last p with last_pad => p_batch p - length vss | _ => 0 end) es vsss /\
      Forall (fun vss => length vss = p_batch p) (removelast vsss).
End Table.

(* The schema was inferred from the instance i by a reader that had opened files and not tried before: attrs are the features and types, cols
   the columns that rows are decoded with. *)
Definition csv_inferred (F : Type) atod is_inf qnan (cp : csv_params) (rp : csv_rparams) fls (i : instance) (attrs : list attr) (cols : list col) : Prop :=
  exists r j r', csv_new cp rp fls r j /\ 0 < j /\ infer_schema F atod is_inf qnan cp r (Some (Model_text.bits i)) = (r', Ok (Some attrs)) /\ cols = columns_of r'.

(* The features attrs are those of the first one of the selected rows. *)
Definition csv_described (F : Type) atod is_inf qnan (cp : csv_params) p fls (i : instance) names l (attrs : list attr) : Prop :=
  first_of p (csv_instances cp fls) i /\ exists known, known_names cp fls known /\ row_schema F atod is_inf qnan cp known (Model_text.bits i) names l attrs.

(* ---------------- RecordIO-protobuf ---------------- *)

Section Pb.
  Import Model_tsr Model_pb Spec_pb Model_pbfile Spec_pbfile.
  Context (V : Type) (vzero : V) (parse : list byte -> option (message V)).

  (* A reader over the RecordIO files fls, each with its payloads: Spec_pbfile.pb_reading, without what the background thread reads. *)
  Definition pb_dataset {rng} (seeded : rng) draw shuf size_max (p : rd_params) (fls : list (text_file * list (list byte))) M : Prop :=
    Forall (fun fl => recordio_file (fst fl) (snd fl)) fls /\
    Forall (fun b => clean V (parse b)) (concat (map snd fls)) /\
    make_instance_reader seeded draw shuf size_max p (map (fun fl => recordio_store (fst fl)) fls) = Ok M /\
    reader_options draw shuf size_max p (length (file_instances fls)).

  (* h is the handling of bad instances, s the schema. *)
  Definition pb_decoding (n : nat) (h : beh) (s : schema) (dec : batch Model_inst.instance -> dres (example (feature V))) : Prop :=
    forall b, length (ba_instances b) <= ba_size b -> ba_size b <= n ->
      exists r, decode_batch V vzero h s (ba_size b) (messages V parse b) r /\ dec b = dres_of r.
End Pb.

(* ---------------- images ---------------- *)

Section Image.
  Import Model_image Spec_image Model_imgfile Spec_imgfile.
  Context (imdecode : mode -> list byte -> option mat) (cv_resize : mat -> Z -> Z -> option mat) (ip : params) (c h w : N).

  (* An image reader over the files fls, each with its images: Spec_imgfile.image_reading, without what the background thread reads. *)
  Definition image_dataset {rng} (seeded : rng) draw shuf size_max (p : rd_params) (fls : list (image_file * list (list byte)))
      (dec : batch Model_inst.instance -> dres image_example) M : Prop :=
    decoder_ok imdecode /\ resizer_ok cv_resize /\ arguments_ok ip c h w /\
    Forall (fun fl => image_source (p_frame ip) (fst fl) (snd fl)) fls /\ NoDup (map (fun fl => im_id (fst fl)) fls) /\
    make_instance_reader seeded draw shuf size_max p (map (fun fl => image_store (p_frame ip) (fst fl)) fls) = Ok M /\
    reader_options draw shuf size_max p (length (concat (map snd fls))) /\
    forall b, dec b = dres_of (image_decode imdecode cv_resize ip (map fst fls) b).
End Image.

(* The schema sc was inferred from the instance i, the first one of the selected payloads: i is a message, and the features are its entries. *)
Definition pb_described {V} (parse : list byte -> option (Model_pb.message V)) (p : rd_params) fls (i : instance) (sc : Model_tsr.schema) : Prop :=
  first_of p (Spec_pbfile.file_instances fls) i /\ exists m, parse (Model_text.bits i) = Some m /\
    Forall2 (Spec_pb.describes V (Z.of_nat (p_batch p))) (Model_pb.m_entries V m) (Model_tsr.s_attributes sc).
