(* Properties C04-C11, C13, C14: splitting a file into records. *)
From Verif Require Import Common Model_csvtok Model_rec Spec_csvtok Spec_rec Proof_csvtok Proof_rec Proof_rec_text
  Proof_rec_bin Proof_rec_spec Proof_rec_more Proof_rec_props Proof_rec_bom Proof_rec_rel.

(* ---------------- C04 ---------------- *)

(* Every text is a sequence of lines ... *)
Theorem C04_text_has_lines : forall xs, exists ls last,
  xs = render_lines ls last /\ Forall (fun l => no_eol (fst l)) ls /\ no_eol last /\ eols_ok ls last.
Proof. exact C04_has_lines. Qed.
Print Assumptions C04_text_has_lines.

(* ... and reading it from memory returns exactly these lines (without blank ones, if asked). *)
Theorem C04_text_lines : forall skip_blank ls last sched size,
  Forall (fun l => no_eol (fst l)) ls -> no_eol last -> eols_ok ls last ->
  Forall (fun l => ~ starts_with utf8_bom (fst l)) ls -> ~ starts_with utf8_bom last ->
  records (text_line_decode skip_blank) true sched size (render_lines ls last)
  = (map (fun l => mk_rec l kComplete)
         (filter (fun l => negb (skip_blank && blank l)) (lines_of ls last)), Ok tt).
Proof. exact C04_lines. Qed.
Print Assumptions C04_text_lines.

(* a LF, b CR LF, empty CR, c *)
Example C04_example :
  let ls := [([97], eol_lf); ([98], eol_crlf); ([], eol_cr)]%N in
  Forall (fun l => no_eol (fst l)) ls /\ no_eol [99]%N /\ eols_ok ls [99]%N /\
  Forall (fun l => ~ starts_with utf8_bom (fst l)) ls /\ ~ starts_with utf8_bom [99]%N /\
  records (text_line_decode false) true [] 4 (render_lines ls [99]%N)
  = ([mk_rec [97] 0; mk_rec [98] 0; mk_rec [] 0; mk_rec [99] 0]%N, Ok tt).
Proof.
  cbn zeta. split; [repeat constructor; cbn; intuition discriminate|].
  split; [split; cbn; intuition discriminate|].
  split; [cbn; intuition discriminate|].
  split; [repeat constructor; intros [t H]; discriminate|].
  split; [intros [t H]; discriminate|]. vm_compute. reflexivity.
Qed.

(* ---------------- C05 ---------------- *)

(* RecordIO and Parquet: for every byte string. *)
Theorem C05_recordio_schedule : forall xs zc zc' sched sched' size size', (0 < size)%N -> (0 < size')%N ->
  records recordio_decode zc sched size xs = records recordio_decode zc' sched' size' xs.
Proof. exact C05_rio. Qed.
Print Assumptions C05_recordio_schedule.

Theorem C05_parquet_schedule : forall xs zc zc' sched sched' size size', (0 < size)%N -> (0 < size')%N ->
  records parquet_decode zc sched size xs = records parquet_decode zc' sched' size' xs.
Proof. exact C05_par. Qed.
Print Assumptions C05_parquet_schedule.

(* CSV: with quoted newlines allowed and no comment character, for every text with no BOM but a
   leading one; in the other modes if moreover there is no CR LF. *)
Theorem C05_csv_schedule : forall p xs zc zc' sched sched' size size', (0 < size)%N -> (0 < size')%N ->
  (forall ys, xs = utf8_bom ++ ys -> ~ contains utf8_bom ys) ->
  (~ starts_with utf8_bom xs -> ~ contains utf8_bom xs) ->
  (cp_allow_quoted_new_lines p = true /\ cp_comment p = None \/ ~ contains [CR; LF] xs) ->
  records (csv_decode p) zc sched size xs = records (csv_decode p) zc' sched' size' xs.
Proof. exact C05_csv. Qed.
Print Assumptions C05_csv_schedule.

Theorem C05_text_schedule : forall skip_blank xs zc zc' sched sched' size size', (0 < size)%N -> (0 < size')%N ->
  (forall ys, xs = utf8_bom ++ ys -> ~ contains utf8_bom ys) ->
  (~ starts_with utf8_bom xs -> ~ contains utf8_bom xs) ->
  ~ contains [CR; LF] xs ->
  records (text_line_decode skip_blank) zc sched size xs = records (text_line_decode skip_blank) zc' sched' size' xs.
Proof. exact C05_text. Qed.
Print Assumptions C05_text_schedule.

(* The hypotheses hold for a text with a leading BOM, a row with a quoted line end and a bare CR. *)
Example C05_example :
  let xs := (utf8_bom ++ [34; 97; 13; 98; 34; 10; 99; 10])%N in
  let p := mk_csv_rparams 44 34 None true false None in
  (forall ys, xs = utf8_bom ++ ys -> ~ contains utf8_bom ys) /\
  (~ starts_with utf8_bom xs -> ~ contains utf8_bom xs) /\
  records (csv_decode p) false [1; 2] 1 xs
  = ([mk_rec [34; 97; 13; 98; 34] 0; mk_rec [99] 0]%N, Ok tt).
Proof.
  cbn zeta. split.
  { intros ys H. injection H as <-. intros (a & b & E).
    refine (no_bom_by_check [34; 97; 13; 98; 34; 10; 99; 10]%N eq_refl a b E). }
  split; [intro H; exfalso; apply H; eexists; reflexivity|]. vm_compute. reflexivity.
Qed.

(* ---------------- C06 ---------------- *)

(* The code violates the property: CR LF across a buffer boundary gives an extra blank line. *)
Theorem C06_crlf_boundary_refuted : exists xs size size', (0 < size)%N /\ (0 < size')%N /\
  records (text_line_decode false) false [] size xs <> records (text_line_decode false) false [] size' xs.
Proof. exact C06_refuted. Qed.
Print Assumptions C06_crlf_boundary_refuted.

(* It holds when blank lines are skipped and no maximum line length is set. *)
Theorem C06_crlf_boundary_partial : forall p xs zc zc' sched sched' size size',
  (0 < size)%N -> (0 < size')%N ->
  (forall ys, xs = utf8_bom ++ ys -> ~ contains utf8_bom ys) ->
  (~ starts_with utf8_bom xs -> ~ contains utf8_bom xs) ->
  cp_skip_blank_lines p = true -> cp_max_line_length p = None ->
  (cp_allow_quoted_new_lines p = true -> cp_delimiter p <> LF /\ cp_quote p <> LF) ->
  records (csv_decode p) zc sched size xs = records (csv_decode p) zc' sched' size' xs.
Proof. exact C06_partial. Qed.
Print Assumptions C06_crlf_boundary_partial.

Example C06_example :
  let p := mk_csv_rparams 44 34 (Some 35%N) false true None in
  records (csv_decode p) false [1] 2 [97; 13; 10; 35; 13; 10; 98]%N
  = ([mk_rec [97] 0; mk_rec [98] 0]%N, Ok tt).
Proof. vm_compute. reflexivity. Qed.

(* In general nothing else goes wrong: however the bytes arrive, the lines are delivered in order and unchanged, and the only
   extra records are empty lines behind lines that end with CR LF (Spec_rec.crlf_split).  The text may have a leading BOM. *)
Theorem C06_extra_blank_lines_only : forall mark ls last zc sched size, (0 < size)%N ->
  mark = [] \/ mark = utf8_bom -> ~ contains utf8_bom (render_lines ls last) ->
  Forall (fun l => no_eol (fst l)) ls -> no_eol last -> eols_ok ls last ->
  exists out, crlf_split ls out /\
    records (text_line_decode false) zc sched size (mark ++ render_lines ls last)
    = (map (fun l => mk_rec l kComplete) (out ++ match last with [] => [] | _ => [last] end), Ok tt).
Proof. exact C06_text_split. Qed.
Print Assumptions C06_extra_blank_lines_only.

(* The same for CSV files without quoted new lines and comments. *)
Theorem C06_extra_blank_lines_only_csv : forall d q mark ls last zc sched size, (0 < size)%N ->
  mark = [] \/ mark = utf8_bom -> ~ contains utf8_bom (render_lines ls last) ->
  Forall (fun l => no_eol (fst l)) ls -> no_eol last -> eols_ok ls last ->
  exists out, crlf_split ls out /\
    records (csv_decode (mk_csv_rparams d q None false false None)) zc sched size (mark ++ render_lines ls last)
    = (map (fun l => mk_rec l kComplete) (out ++ match last with [] => [] | _ => [last] end), Ok tt).
Proof. exact C06_csv_split. Qed.
Print Assumptions C06_extra_blank_lines_only_csv.

(* An extra blank line behind the first of two lines. *)
Example C06_split_example :
  let ls := [([97; 98; 99], eol_crlf); ([100], eol_crlf)]%N in
  ~ contains utf8_bom (render_lines ls []) /\ Forall (fun l => no_eol (fst l)) ls /\ eols_ok ls [] /\
  records (text_line_decode false) false [] 4 (render_lines ls [])
  = (map (fun l => mk_rec l kComplete) [[97; 98; 99]; []; [100]]%N, Ok tt) /\
  crlf_split ls [[97; 98; 99]; []; [100]]%N.
Proof.
  cbn zeta. split; [intros (a & b & E); refine (no_bom_by_check _ _ a b E); reflexivity|].
  split; [repeat constructor; cbn; intuition discriminate|]. split; [cbn; intuition discriminate|].
  split; [vm_compute; reflexivity|]. apply cs_extra, cs_line, cs_nil.
Qed.

(* ---------------- C07, C08 ---------------- *)

Theorem C07_recordio_round_trip : forall (rs : list (rec * list byte)) zc sched size, (0 < size)%N ->
  Forall (fun x => rio_wf (kind (fst x)) (payload (fst x)) (snd x)) rs ->
  records recordio_decode zc sched size
    (flat_map (fun x => rio_encode1 (kind (fst x)) (payload (fst x)) (snd x)) rs)
  = (map fst rs, Ok tt).
Proof. exact rio_round_trip. Qed.
Print Assumptions C07_recordio_round_trip.

Example C07_example :
  let rs := [(mk_rec [1; 2; 3] 0, [0]); (mk_rec [] 1, []); (mk_rec [9] 3, [0; 0; 0])]%N in
  Forall (fun x => rio_wf (kind (fst x)) (payload (fst x)) (snd x)) rs.
Proof. repeat constructor; vm_compute; auto. Qed.

(* Arbitrary bytes: the records returned, re-encoded with some padding, are the bytes consumed; reading ends
   normally iff nothing is left over, and otherwise what is left over does not start with a complete record. *)
Theorem C08_recordio_arbitrary : forall xs zc sched size, (0 < size)%N -> Forall is_byte xs ->
  exists rs tl e, records recordio_decode zc sched size xs = (map fst rs, e) /\
    xs = flat_map (fun x => rio_encode1 (kind (fst x)) (payload (fst x)) (snd x)) rs ++ tl /\
    Forall (fun x => rio_wf (kind (fst x)) (payload (fst x)) (snd x)) rs /\
    ((e = Ok tt /\ tl = []) \/
     (e = Throw Corrupt_header /\ tl <> [] /\
      ~ exists k pl pad rest, rio_wf k pl pad /\ tl = rio_encode1 k pl pad ++ rest)).
Proof. exact C08_arbitrary. Qed.
Print Assumptions C08_recordio_arbitrary.

Example C08_example : (* a record followed by garbage *)
  records recordio_decode false [3] 2 (rio_encode1 0 [7; 8]%N [0; 0]%N ++ [1; 2; 3]%N)
  = ([mk_rec [7; 8]%N 0], Throw Corrupt_header).
Proof. vm_compute. reflexivity. Qed.

(* ---------------- C09 ---------------- *)

Definition quoted_params (d q : byte) (skip_blank : bool) : csv_rparams :=
  mk_csv_rparams d q None true skip_blank None.

(* A BOM or none, then rows, each with a line end of any kind; then the last row, possibly without.  However the bytes arrive,
   each row is one record (blank ones dropped if asked), and the tokenizer returns its field values. *)
Theorem C09_quoted_newlines : forall d q skip_blank b ls last zc sched size, (0 < size)%N ->
  d <> LF -> d <> CR -> q <> LF -> q <> CR ->
  Forall (fun l => exists vs, Line_row d q (fst l) vs) ls -> (exists vs, Line_row d q last vs) ->
  eols_ok ls last -> b = [] \/ b = utf8_bom -> ~ contains utf8_bom (render_lines ls last) ->
  records (csv_decode (quoted_params d q skip_blank)) zc sched size (b ++ render_lines ls last)
  = (map (fun l => mk_rec l kComplete)
         (filter (fun l => negb (skip_blank && blank l)) (lines_of ls last)), Ok tt).
Proof. exact C09_rows_bom. Qed.
Print Assumptions C09_quoted_newlines.

Theorem C09_row_fields : forall d q t vs, Line_row d q t vs ->
  tokenize d q None t = Ok (map (fun v => (v, false)) vs).
Proof. exact C09_fields. Qed.
Print Assumptions C09_row_fields.

Theorem C09_unclosed : forall d q skip_blank b ls u zc sched size, (0 < size)%N ->
  d <> LF -> d <> CR -> q <> LF -> q <> CR ->
  Forall (fun l => exists vs, Line_row d q (fst l) vs) ls -> Line_unclosed d q u ->
  eols_ok ls u -> b = [] \/ b = utf8_bom -> ~ contains utf8_bom (render_lines ls u) ->
  records (csv_decode (quoted_params d q skip_blank)) zc sched size (b ++ render_lines ls u)
  = (map (fun l => mk_rec l kComplete)
         (filter (fun l => negb (skip_blank && blank l)) (map fst ls)), Throw Corrupt_record).
Proof. exact C09_open_bom. Qed.
Print Assumptions C09_unclosed.

Example C09_example : (* "a LF b",c as one row with two fields *)
  Line_row 44 34 [34; 97; 10; 98; 34; 44; 99]%N [[97; 10; 98]; [99]]%N.
Proof.
  apply (LR_cons 44 34 [34; 97; 10; 98; 34]%N [97; 10; 98]%N [99]%N [[99]]%N).
  - apply (LF_quoted 44 34 [97; 10; 98]%N [97; 10; 98]%N []); [discriminate| | |].
    + repeat (apply QB_char; [discriminate|]). apply QB_nil.
    + split; cbn; intuition discriminate.
    + split; cbn; intuition discriminate.
  - apply LR_last. apply LF_plain; split; cbn; intuition discriminate.
Qed.

(* ---------------- C10 ---------------- *)

(* The code violates the property: a BOM sequence at the start of any line is removed. *)
Theorem C10_bom_refuted : exists ls,
  Forall (fun l => no_eol (fst l)) ls /\ eols_ok ls [] /\
  Forall (fun l => ~ starts_with utf8_bom (fst l)) (firstn 1 ls) /\
  records (text_line_decode false) true [] 4 (render_lines ls [])
  <> (map (fun l => mk_rec l kComplete) (map fst ls), Ok tt).
Proof. exact C10_refuted. Qed.
Print Assumptions C10_bom_refuted.

(* It holds if no line (after the leading BOM) starts with a BOM sequence. *)
Theorem C10_bom_partial : forall skip_blank ls last sched size,
  Forall (fun l => no_eol (fst l)) ls -> no_eol last -> eols_ok ls last ->
  Forall (fun l => ~ starts_with utf8_bom (fst l)) ls -> ~ starts_with utf8_bom last ->
  records (text_line_decode skip_blank) true sched size (utf8_bom ++ render_lines ls last)
  = (map (fun l => mk_rec l kComplete)
         (filter (fun l => negb (skip_blank && blank l)) (lines_of ls last)), Ok tt).
Proof. exact C10_partial. Qed.
Print Assumptions C10_bom_partial.

(* What is delivered for any text held in memory: a BOM sequence is removed at the start of the text and at the start of every
   line after a delivered one (Spec_rec.lines_seen).  Every text is render_lines of some lines (C04_every_text_has_lines). *)
Theorem C10_bom_exact : forall skip_blank ls last sched size,
  Forall (fun l => no_eol (fst l)) ls -> no_eol last -> eols_ok ls last ->
  records (text_line_decode skip_blank) true sched size (render_lines ls last)
  = (map (fun l => mk_rec l kComplete) (lines_seen (fun l => skip_blank && blank l) true (map fst ls) last), Ok tt).
Proof. exact C10_exact. Qed.
Print Assumptions C10_bom_exact.

(* The same for CSV files without quoted new lines, where comments are dropped too. *)
Theorem C10_bom_exact_csv : forall d q cc skip_blank ls last sched size, cc <> Some LF -> cc <> Some CR ->
  Forall (fun l => no_eol (fst l)) ls -> no_eol last -> eols_ok ls last ->
  records (csv_decode (mk_csv_rparams d q cc false skip_blank None)) true sched size (render_lines ls last)
  = (map (fun l => mk_rec l kComplete)
       (lines_seen (fun l => match cc, l with Some c, x :: _ => N.eqb x c | _, _ => false end || skip_blank && blank l)
          true (map fst ls) last), Ok tt).
Proof. exact C10_exact_csv. Qed.
Print Assumptions C10_bom_exact_csv.

(* A line of a BOM only, followed by a line with a BOM: the first is dropped as blank, the BOM of the second is kept, that of
   the third is removed. *)
Example C10_exact_example :
  lines_seen (fun l => true && blank l) true [utf8_bom; utf8_bom ++ [97]; utf8_bom ++ [98]]%N [] = [utf8_bom ++ [97]; [98]]%N.
Proof. reflexivity. Qed.

Example C10_example :
  records (text_line_decode false) true [] 4 (utf8_bom ++ [97; 239; 187; 191; 10])%N
  = ([mk_rec [97; 239; 187; 191]%N 0], Ok tt).
Proof. vm_compute. reflexivity. Qed.

(* ---------------- C11 ---------------- *)

(* The code violates the property: the same line and the same maximum, accepted or rejected depending on
   the line end and on the mode. *)
Theorem C11_max_line_length_refuted : exists l m,
  let plain := mk_csv_rparams 44 34 None false false (Some m) in
  let quoted := mk_csv_rparams 44 34 None true false (Some m) in
  length l < m /\ no_eol l /\ ~ In 34%N l /\
  records (csv_decode plain) true [] 4 (render_lines [(l, eol_lf)] []) = ([mk_rec l kComplete], Ok tt) /\
  records (csv_decode plain) true [] 4 (render_lines [(l, eol_crlf)] []) = ([], Throw Record_too_large) /\
  records (csv_decode quoted) true [] 4 (render_lines [(l, eol_lf)] []) = ([], Throw Record_too_large).
Proof. exact C11_refuted. Qed.
Print Assumptions C11_max_line_length_refuted.

(* What does hold: the length that is compared exceeds the line's by at most the line end's. *)
Theorem C11_max_line_length_partial : forall p l e rest m vs,
  cp_max_line_length p = Some m -> cp_comment p = None -> cp_skip_blank_lines p = false ->
  cp_delimiter p <> LF -> cp_delimiter p <> CR -> cp_quote p <> LF -> cp_quote p <> CR ->
  no_eol l -> Line_row (cp_delimiter p) (cp_quote p) l vs -> ~ starts_with utf8_bom l ->
  (e = eol_cr -> hd_error rest <> Some LF) ->
  let over := if cp_allow_quoted_new_lines p then length (eol_bytes e) else length (eol_bytes e) - 1 in
  csv_decode p (l ++ eol_bytes e ++ rest) false
  = if m <=? length l + over then Throw Record_too_large
    else Ok (Some (mk_rec l kComplete), rest, None).
Proof. exact C11_partial. Qed.
Print Assumptions C11_max_line_length_partial.

Example C11_example : (* a three-byte row, maximum 5, CR LF, quoted newlines allowed: over by the two line end bytes *)
  no_eol [97; 44; 98]%N /\ Line_row 44 34 [97; 44; 98]%N [[97]; [98]]%N /\
  csv_decode (mk_csv_rparams 44 34 None true false (Some 5)) [97; 44; 98; 13; 10; 99]%N false = Throw Record_too_large.
Proof.
  split; [split; cbn; intuition discriminate|]. split; [|reflexivity].
  apply (LR_cons 44 34 [97]%N [97]%N [98]%N [[98]]%N).
  - apply LF_plain; split; cbn; intuition discriminate.
  - apply LR_last. apply LF_plain; split; cbn; intuition discriminate.
Qed.

(* ---------------- C13 ---------------- *)

(* [drive] is any consumer: from each chunk it takes [choose chunk] bytes and leaves the rest.  No call is undefined
   or runs forever; the bytes taken, those left over and those still in the stream are always the file;
   after at most length + 2 calls an empty chunk is delivered, and then the stream is used up. *)
Theorem C13_chunks : forall choose xs sched size n, (0 < size)%N ->
  exists taken left d stopped,
    drive choose n (mk_dchunk (mk_stream xs sched) size None false) [] [] = Ok (taken, left, d, stopped) /\
    taken ++ left ++ s_rest (cr_stream d) = xs /\
    (stopped = true -> s_rest (cr_stream d) = []) /\
    (length xs + 2 <= n -> stopped = true).
Proof. exact C13_conserve. Qed.
Print Assumptions C13_chunks.

(* Every chunk is the leftover followed by at least one new byte, unless the stream is at its end. *)
Theorem C13_chunk_grows : forall d leftover, chunk_inv d leftover -> cr_eof d = false ->
  exists chunk d' k, dchunk_read d leftover = Ok (chunk, d') /\
    chunk = leftover ++ firstn k (s_rest (cr_stream d)) /\ 0 < k /\
    s_rest (cr_stream d') = skipn k (s_rest (cr_stream d)) /\
    (forall j, chunk_inv d' (skipn j chunk)).
Proof. exact C13_grows. Qed.
Print Assumptions C13_chunk_grows.

Example C13_example : (* a consumer that never takes anything from chunks shorter than 5 *)
  chunk_inv (mk_dchunk (mk_stream [1; 2; 3; 4; 5; 6]%N [1]) 2 None false) [] /\
  exists d, drive (fun c => if length c <? 5 then 0 else length c) 8
    (mk_dchunk (mk_stream [1; 2; 3; 4; 5; 6]%N [1]) 2 None false) [] [] = Ok ([1; 2; 3; 4; 5; 6]%N, [], d, true).
Proof.
  split; [split; [reflexivity|split; [discriminate|reflexivity]]|]. eexists. vm_compute. reflexivity.
Qed.

(* ---------------- C14 ---------------- *)

(* The records are the shortest framed prefixes, one after the other, and reading stops normally iff nothing
   is left, with a header error iff the rest does not start with the magic, and with a footer error iff it does but
   no prefix of it is framed. *)
Theorem C14_parquet_framing : forall xs zc sched size, (0 < size)%N -> Forall is_byte xs ->
  exists fs tl e, records parquet_decode zc sched size xs = (map (fun f => mk_rec f kComplete) fs, e) /\
    par_files xs fs tl /\
    ((e = Ok tt /\ tl = []) \/
     (e = Throw Corrupt_header /\ tl <> [] /\ ~ starts_with par1 tl) \/
     (e = Throw Corrupt_footer /\ starts_with par1 tl /\ ~ exists f g, tl = f ++ g /\ framed f)).
Proof. exact C14_framing. Qed.
Print Assumptions C14_parquet_framing.

(* Concatenated files none of which has a look-alike footer inside. *)
Theorem C14_parquet_concat : forall fs zc sched size, (0 < size)%N ->
  Forall (fun f => Forall is_byte f /\ framed f /\
                   forall f' g', f = f' ++ g' -> framed f' -> g' = []) fs ->
  records parquet_decode zc sched size (concat fs) = (map (fun f => mk_rec f kComplete) fs, Ok tt).
Proof. exact C14_concat. Qed.
Print Assumptions C14_parquet_concat.

Example C14_example : (* magic, nine bytes of metadata, their size, magic *)
  framed (par1 ++ [21; 0; 0; 0; 0; 0; 0; 0; 0] ++ [9; 0; 0; 0] ++ par1)%N.
Proof.
  exists [], [21; 0; 0; 0; 0; 0; 0; 0; 0]%N, 9%N. repeat split; try reflexivity; try discriminate.
  - exists [21; 0; 0; 0; 0; 0; 0; 0]%N. reflexivity.
  - exists 21%N, [0; 0; 0; 0; 0; 0; 0; 0]%N. split; [reflexivity|left; reflexivity].
Qed.

(* ---------------- C59 ---------------- *)

(* The line splitter reads one byte past the end of a chunk without line end ... *)
Theorem C59_line_scan_bounds_refuted : exists chunk i,
  chunk <> [] /\ In i (lscan_touched chunk 0) /\ length chunk <= i.
Proof. exact C59_refuted. Qed.
Print Assumptions C59_line_scan_bounds_refuted.

(* ... and never further; it stays inside whenever there is a line end. *)
Theorem C59_line_scan_bounds_partial : forall chunk i, In i (lscan_touched chunk 0) ->
  i <= length chunk /\ (In LF chunk \/ In CR chunk -> i < length chunk).
Proof. exact C59_partial. Qed.
Print Assumptions C59_line_scan_bounds_partial.

Example C59_example : lscan_touched [97; 13; 98]%N 0 = [0; 1; 2].
Proof. reflexivity. Qed.

(* ---------------- C60 ---------------- *)

(* Each line is a comment (starts with the comment character), or a plain line, or, with quoted newlines allowed, a
   row; exactly the lines that are not comments (nor blank, if these are skipped) are delivered. *)
Theorem C60_comment_lines : forall p cc ls last sched size,
  cp_comment p = Some cc -> cc <> LF -> cc <> CR -> cp_max_line_length p = None ->
  (cp_allow_quoted_new_lines p = true ->
   cp_delimiter p <> LF /\ cp_delimiter p <> CR /\ cp_quote p <> LF /\ cp_quote p <> CR) ->
  let commented l := exists t, l = cc :: t in
  let line_ok l := no_eol l \/
    (~ commented l /\ cp_allow_quoted_new_lines p = true /\ exists vs, Line_row (cp_delimiter p) (cp_quote p) l vs) in
  (cp_allow_quoted_new_lines p = true ->
   Forall (fun l => commented l \/ exists vs, Line_row (cp_delimiter p) (cp_quote p) l vs) (lines_of ls last)) ->
  Forall (fun l => line_ok (fst l)) ls -> line_ok last -> eols_ok ls last ->
  Forall (fun l => ~ starts_with utf8_bom (fst l)) ls -> ~ starts_with utf8_bom last ->
  records (csv_decode p) true sched size (render_lines ls last)
  = (map (fun l => mk_rec l kComplete)
       (filter (fun l => negb (match l with c :: _ => N.eqb c cc | [] => false end)
                         && negb (cp_skip_blank_lines p && blank l)) (lines_of ls last)), Ok tt).
Proof. exact C60_comments. Qed.
Print Assumptions C60_comment_lines.

Example C60_example : (* a comment with an odd quote in it, then a row *)
  let p := mk_csv_rparams 44 34 (Some 35%N) true false None in
  let ls := [([35; 34; 97], eol_lf); ([98], eol_lf)]%N in
  Forall (fun l => (exists t, l = 35%N :: t) \/ exists vs, Line_row 44 34 l vs) (lines_of ls []) /\
  Forall (fun l => no_eol (fst l)) ls /\
  records (csv_decode p) true [] 4 (render_lines ls []) = ([mk_rec [98]%N 0], Ok tt).
Proof.
  cbn zeta. split; [|split; [repeat constructor; cbn; intuition discriminate|reflexivity]].
  constructor; [left; eexists; reflexivity|]. constructor; [|constructor]. right. exists [[98]]%N.
  apply LR_last, LF_plain; split; cbn; intuition discriminate.
Qed.
