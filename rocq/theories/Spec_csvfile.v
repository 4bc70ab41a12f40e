(* What CSV files hold, and what a whole CSV reader goes through. *)
From Coq Require Import Permutation.
From Verif Require Import Common Spec_csvtok Model_rec Spec_rec Model_inst Spec_inst Model_par Spec_par Model_text Spec_text Model_num Model_csv Spec_csv Model_csvfile.

(* The line is a comment. *)
Definition commented (cc : option byte) (l : list byte) : bool :=
  match cc, l with Some c, x :: _ => N.eqb x c | _, _ => false end.

(* The rows of a CSV file: behind a byte order mark, if there is one, its lines that are neither comments nor, if these are to be skipped, blank.  With quoted new lines a line
   may go over several lines of text.  The conditions are those of C05, C06, C09, C10 and C60. *)
Definition csv_file (rp : csv_rparams) (f : text_file) (rows : list str) : Prop :=
  (0 < tf_chunk f)%N /\ cp_max_line_length rp = None /\
  (tf_in_memory f = true \/ cp_skip_blank_lines rp = true \/ (cp_allow_quoted_new_lines rp = true /\ cp_comment rp = None) \/
   ~ contains [CR; LF] (tf_text f)) /\
  (cp_allow_quoted_new_lines rp = true ->
     (cp_delimiter rp <> LF /\ cp_delimiter rp <> CR) /\ (cp_quote rp <> LF /\ cp_quote rp <> CR)) /\
  (cp_comment rp <> Some LF /\ cp_comment rp <> Some CR) /\
  exists mark ls last, tf_text f = mark ++ render_lines ls last /\ (mark = [] \/ mark = utf8_bom) /\
    ~ contains utf8_bom (render_lines ls last) /\ eols_ok ls last /\
    (forall l, In l (map fst ls) \/ l = last ->
       if negb (commented (cp_comment rp) l) && cp_allow_quoted_new_lines rp
       then exists vs, Line_row (cp_delimiter rp) (cp_quote rp) l vs
       else no_eol l) /\
    rows = filter (fun l => negb (commented (cp_comment rp) l) && negb (cp_skip_blank_lines rp && blank l)) (lines_of ls last).

Section Session.
  Context (F : Type) (atod : list byte -> option F) (is_inf : F -> bool) (qnan : F).
  Context (p : csv_params) (raws : list (list row)).
  (* What the reader may have done so far, as Spec_csv.session but with files of which raws are the rows, or errors, that are read from them: j files have been opened in the current epoch, and
     out are the rows that are left in them after the headers have been removed. *)
  Inductive csv_session : reader -> nat -> list (list row) -> Prop :=
  | Cs_new : csv_session (new_reader p) 0 []
  | Cs_open r j out raw r' rows :
      csv_session r j out -> nth_error raws j = Some raw ->
      open_store p r raw = (r', Ok rows) -> csv_session r' (S j) (out ++ [rows])
  | Cs_schema r j out inst :
      csv_session r j out -> inst = None \/ 0 < j ->
      csv_session (fst (infer_schema F atod is_inf qnan p r inst)) j out
  | Cs_reset r j out : csv_session r j out -> csv_session (csv_reset r) 0 [].
End Session.

(* The data rows of the files as instances. *)
Definition csv_instances (p : csv_params) (fls : list (text_file * list str)) : list instance :=
  concat (map (fun fr => Spec_inst.numbered (tf_id (fst fr)) (snd fr))
    (combine (map fst fls) (without_headers p 0 (map snd fls)))).

(* The stores of an epoch in which the files were opened with the rows out. *)
Definition csv_stores (fls : list (text_file * list str)) (out : list (list row)) : list Model_inst.store :=
  map (fun fr => csv_store (tf_id (fst fr)) (snd fr)) (combine (map fst fls) out).

(* The batches without a bad row. *)
Inductive spared {A} (bad : A -> Prop) : list (batch A) -> list (batch A) -> Prop :=
| sp_nil : spared bad [] []
| sp_keep b bs cs : Forall (fun i => ~ bad i) (ba_instances b) -> spared bad bs cs -> spared bad (b :: bs) (b :: cs)
| sp_drop b bs cs : Exists bad (ba_instances b) -> spared bad bs cs -> spared bad (b :: bs) cs.

(* A CSV reader over the files fls (each with its rows): cp are the options of the CSV reader, rp those of the record reader, p those
   of every reader.  The files are opened as in any history of the reader (csv_session); by C36 the rows that are left after the
   headers do not depend on the history.  cols are the columns, dec is what decoding the batches gives (one of the outcomes of Model_csv.decode), M the chain of instance
   readers, and src and src_end are what the background thread reads. *)
Definition csv_reading {rng} (seeded : rng) draw shuf size_max (p : rd_params)
    (F : Type) atof atod is_inf qnan fzero (cp : csv_params) rp (fls : list (text_file * list str)) cols
    (dec : batch instance -> dres (list (list (Model_num.val F)) * nat)) M src src_end : Prop :=
  Forall (fun fl => csv_file rp (fst fl) (snd fl)) fls /\
  (forall h, p_header cp = Some h -> Forall (proper cp h) (map snd fls)) /\
  (exists r out, csv_session F atod is_inf qnan cp (map (fun fl => csv_rows rp (fst fl)) fls) r (length fls) out /\
     make_instance_reader seeded draw shuf size_max p (csv_stores fls out) = Ok M) /\
  (forall r, p_ratio p = Some r -> float_ratio r) /\
  (forall w g, 0 < w -> fst (draw w g) < w) /\ (forall l g, Permutation (fst (shuf l g)) l) /\
  length (csv_instances cp fls) < size_max /\ 0 < p_batch p /\
  fed_by M (p_batch p) (p_last p) src src_end /\
  forall ep b, In b (src ep) -> exists out, decode F atof atod is_inf qnan fzero cp cols (map Model_text.bits (ba_instances b)) (ba_size b) out /\
    dec b = dres_of out.

(* es are examples of the selected instances of xs, in the order asked for: their rows are the values of the instances, each instance
   once; only an incomplete last batch may be missing, if it is to be dropped.  All examples but the last are full, and the padding
   of the last one is counted. *)
Definition delivers (p : rd_params) (F : Type) atof atod is_inf qnan (cp : csv_params) cols
    (xs : list instance) (es : list (list (list (Model_num.val F)) * nat)) : Prop :=
  exists ys zs rest vsss, Spec_inst.selected p xs ys /\ ordered p ys (zs ++ rest) /\
    length rest < p_batch p /\ (rest = [] \/ p_last p = last_drop \/ p_last p = last_drop_warn) /\
    Forall2 (good_row F atof atod is_inf qnan cp cols) (map Model_text.bits zs) (concat vsss) /\
    Forall2 (fun e vss => holds F cols (fst e) vss /\ vss <> [] /\
      snd e = match p_last p with last_pad => p_batch p - length vss | _ => 0 end) es vsss /\
    Forall (fun vss => length vss = p_batch p) (removelast vsss).
