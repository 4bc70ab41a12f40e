(* What data stores carry once they are decompressed and converted, and whole readers over such stores. *)
From Coq Require Import Permutation.
From Verif Require Import Common Model_rec Spec_rec Model_gzip Spec_gzip Model_utf8 Spec_utf8 Model_names Model_source Spec_source
  Model_inst Spec_inst Model_par Spec_par Model_text Spec_text Model_num Model_csv Spec_csv Model_csvfile Spec_csvfile Model_tsr Model_pb Spec_pb
  Model_pbfile Spec_pbfile Model_coded.

Section Coded.
  Variable lb : libs.

  (* What is assumed of zlib and iconv (Spec_source.eager and checked, Spec_utf8.converter). *)
  Definition sound : Prop := eager (l_z lb) (l_step lb) (l_stops lb) /\ checked (l_z lb) (l_step lb) /\ converter (l_st lb) (l_cv lb).

  (* The store decompresses to data, which ends with f (Spec_source.fate).  The conditions are those of C79. *)
  Definition carries (sf : source_file) (data : list byte) (f : fate) : Prop :=
    (0 < sf_chunk sf < 2 ^ 32)%N /\
    match d_comp (sf_store sf) with
    | Co_none | Co_infer => data = d_bytes (sf_store sf) /\ f = Ends
    | Co_gzip => lively_file (l_z lb) (l_init lb) (l_step lb) (d_bytes (sf_store sf)) (d_sched (sf_store sf)) data f /\ (N.of_nat (length data) < 2 ^ 31)%N
    | Co_bzip2 | Co_zip => False
    end.
  (* The store carries text that is out in UTF-8.  The conditions are those of C80. *)
  Definition carries_text (D : decoder) (sf : source_file) (out : list byte) (f : fate) : Prop :=
    exists data g t, carries sf data g /\ sf_given sf <> Some E_latin1 /\
      in_utf8 (l_st lb) (l_open lb) (l_cv lb) (Spec_utf8.effective (sf_given sf) data) data out t /\ f = outcome g t /\
      (d_comp (sf_store sf) <> Co_gzip /\ d_seekable (sf_store sf) = true \/ sf_given sf <> None \/ Spec_utf8.effective (sf_given sf) data = E_utf8 \/ 4 < length data) /\
      text_format D out /\ (N.of_nat (length out) < 2 ^ 31)%N /\ length data + length out + 3 <= sf_fuel sf.

  (* The same bytes, held in memory. *)
  Definition held (sf : source_file) (data : list byte) : text_file := mk_text_file (sf_id sf) data true [] 1%N.

  (* Each store with what it carries and with the lines, rows or payloads in it. *)
  Definition lines_in (x : source_file * (list byte * list (list byte))) : Prop :=
    carries_text (text_line_decode false) (fst x) (fst (snd x)) Ends /\ has_lines (held (fst x) (fst (snd x))) (snd (snd x)).
  Definition rows_in (rp : csv_rparams) (x : source_file * (list byte * list str)) : Prop :=
    carries_text (csv_decode rp) (fst x) (fst (snd x)) Ends /\ csv_file rp (held (fst x) (fst (snd x))) (snd (snd x)).
  Definition payloads_in (x : source_file * (list byte * list (list byte))) : Prop :=
    carries (fst x) (fst (snd x)) Ends /\ length (fst (snd x)) + 3 <= sf_fuel (fst x) /\ recordio_file (held (fst x) (fst (snd x))) (snd (snd x)).

  (* The stores as files in memory, with the lines, rows or payloads. *)
  Definition in_memory {A} (xs : list (source_file * (list byte * A))) : list (text_file * A) :=
    map (fun x => (held (fst x) (fst (snd x)), snd (snd x))) xs.

  (* A CSV reader over such stores: as Spec_csvfile.csv_reading. *)
  Definition csv_source_reading {rng} (seeded : rng) draw shuf size_max (p : rd_params)
      (F : Type) atof atod is_inf qnan fzero (cp : csv_params) rp (xs : list (source_file * (list byte * list str))) cols
      (dec : batch Model_inst.instance -> dres (list (list (Model_num.val F)) * nat)) M src src_end : Prop :=
    Forall (rows_in rp) xs /\
    (forall h, p_header cp = Some h -> Forall (proper cp h) (map (fun x => snd (snd x)) xs)) /\
    (exists r out, csv_session F atod is_inf qnan cp (map (fun x => csv_source lb rp (fst x)) xs) r (length xs) out /\
       make_instance_reader seeded draw shuf size_max p
         (map (fun xr => csv_store (sf_id (fst (fst xr))) (snd xr)) (combine xs out)) = Ok M) /\
    (forall r, p_ratio p = Some r -> float_ratio r) /\
    (forall w g, 0 < w -> fst (draw w g) < w) /\ (forall l g, Permutation (fst (shuf l g)) l) /\
    length (csv_instances cp (in_memory xs)) < size_max /\ 0 < p_batch p /\
    fed_by M (p_batch p) (p_last p) src src_end /\
    forall ep b, In b (src ep) -> exists out, decode F atof atod is_inf qnan fzero cp cols (map Model_text.bits (ba_instances b)) (ba_size b) out /\
      dec b = dres_of out.

  (* A RecordIO-protobuf reader over such stores: as Spec_pbfile.pb_reading. *)
  Definition pb_source_reading V (vzero : V) parse {rng} (seeded : rng) draw shuf size_max (p : rd_params) (h : beh) (s : schema)
      (xs : list (source_file * (list byte * list (list byte)))) (dec : batch Model_inst.instance -> dres (example (feature V))) M src src_end : Prop :=
    Forall payloads_in xs /\
    Forall (fun b => clean V (parse b)) (concat (map (fun x => snd (snd x)) xs)) /\
    usable_schema (p_batch p) s /\
    make_instance_reader seeded draw shuf size_max p (map (fun x => recordio_source lb (fst x)) xs) = Ok M /\
    (forall r, p_ratio p = Some r -> float_ratio r) /\
    (forall w g, 0 < w -> fst (draw w g) < w) /\ (forall l g, Permutation (fst (shuf l g)) l) /\
    length (file_instances (in_memory xs)) < size_max /\ 0 < p_batch p /\
    fed_by M (p_batch p) (p_last p) src src_end /\
    forall ep b, In b (src ep) -> exists r, decode_batch V vzero h s (ba_size b) (messages V parse b) r /\ dec b = dres_of r.
End Coded.
