(* Whole readers over compressed and encoded data stores: C91. *)
From Coq Require Import Permutation.
From Verif Require Import Common Model_rec Spec_rec Proof_rec_props Model_gzip Spec_gzip Props_gzip Model_utf8 Spec_utf8 Props_utf8 Model_names Model_source Spec_source Props_source
  Model_inst Spec_inst Model_par Spec_par Model_text Spec_text Proof_text Props_text Model_num Model_csv Spec_csv Props_csv Model_csvfile Spec_csvfile Proof_csvfile Props_csvfile
  Model_tsr Model_pb Spec_pb Model_pbfile Spec_pbfile Proof_pbfile Props_pb Props_pbfile Spec_fault Proof_fault Props_csvfault Model_coded Spec_coded Proof_coded.

(* ---------------- the same as from memory ---------------- *)

(* Readers cannot tell such stores from files that hold the decompressed bytes, or the text in UTF-8, in memory: so all that C74 to C78
   and C87 say of those holds for these.  (Not for all compressed files: C79.) *)
Theorem C91_lines_same_partial : forall lb, sound lb -> forall xs, Forall (lines_in lb) xs ->
  map (fun x => line_source lb (fst x)) xs = map (fun fl => text_store (fst fl)) (in_memory xs) /\
  Forall (fun fl => text_ok (fst fl) /\ has_lines (fst fl) (snd fl)) (in_memory xs) /\ map snd (in_memory xs) = map (fun x => snd (snd x)) xs.
Proof.
  intros lb HL xs H. split; [now apply lines_same|]. split; [now apply (lines_ok lb)|]. unfold in_memory. rewrite map_map. reflexivity.
Qed.
Print Assumptions C91_lines_same_partial.

Theorem C91_csv_same_partial : forall lb, sound lb -> forall (rng : Type) (seeded : rng) draw shuf size_max p F atof atod is_inf qnan fzero cp rp xs cols dec M src src_end,
  csv_source_reading lb seeded draw shuf size_max p F atof atod is_inf qnan fzero cp rp xs cols dec M src src_end ->
  csv_reading seeded draw shuf size_max p F atof atod is_inf qnan fzero cp rp (in_memory xs) cols dec M src src_end.
Proof. intros. eapply csv_reading_same; eassumption. Qed.
Print Assumptions C91_csv_same_partial.

Theorem C91_recordio_same_partial : forall lb, sound lb -> forall V (vzero : V) parse (rng : Type) (seeded : rng) draw shuf size_max p h s xs dec M src src_end,
  pb_source_reading lb V vzero parse seeded draw shuf size_max p h s xs dec M src src_end ->
  pb_reading V vzero parse seeded draw shuf size_max p h s (in_memory xs) dec M src src_end.
Proof. intros. eapply pb_same; eassumption. Qed.
Print Assumptions C91_recordio_same_partial.

(* ---------------- to the end ---------------- *)

(* Text: once end of data is reported, the examples hold all lines of all stores. *)
Theorem C91_all_lines_partial : forall lb, sound lb -> forall (rng : Type) (seeded : rng) draw shuf size_max p xs M src src_end
    bytes cores np pr prefetch reads s,
  Forall (lines_in lb) xs -> make_instance_reader seeded draw shuf size_max p (map (fun x => line_source lb (fst x)) xs) = Ok M ->
  p_skip p = 0 -> p_take p = None -> p_num_shards p <= 1 -> p_ratio p = None -> p_shuffle p = false ->
  p_last p <> last_drop -> p_last p <> last_drop_warn ->
  (forall w g, 0 < w -> fst (draw w g) < w) -> (forall l g, Permutation (fst (shuf l g)) l) ->
  length (concat (map (fun x => snd (snd x)) xs)) < size_max -> 0 < p_batch p -> fed_by M (p_batch p) (p_last p) src src_end ->
  graph_params cores np pr = (prefetch, reads) -> 1 <= cores ->
  reachable (fun b => dres_of (text_decode b)) bytes src src_end prefetch reads s -> In O_end (log s) ->
  concat (map example_lines (Spec_par.delivered (log s))) = concat (map (fun x => snd (snd x)) xs).
Proof.
  intros lb HL rng seeded draw shuf size_max p xs M src src_end bytes cores np pr prefetch reads s HF HM H1 H2 H3 H4 H5 H6 H7 Hd Hp Hm Hb Hfed HG HC HR HE.
  rewrite lines_same in HM by assumption.
  replace (map (fun x => snd (snd x)) xs) with (map snd (in_memory xs)) in * by (unfold in_memory; rewrite map_map; reflexivity).
  eapply text_all; try eassumption; [exact (lines_ok lb xs HF)|]. rewrite <- bits_instances, map_length in Hm. exact Hm.
Qed.
Print Assumptions C91_all_lines_partial.

(* CSV with good rows: once end of data is reported, the examples hold the values of exactly the selected data rows of all stores. *)
Theorem C91_good_rows_partial : forall lb, sound lb -> forall (rng : Type) (seeded : rng) draw shuf size_max p F atof atod is_inf qnan fzero cp rp xs cols
    dec M src src_end cores np pr prefetch reads bytes s,
  csv_source_reading lb seeded draw shuf size_max p F atof atod is_inf qnan fzero cp rp xs cols dec M src src_end ->
  graph_params cores np pr = (prefetch, reads) -> 1 <= cores -> reachable dec bytes src src_end prefetch reads s ->
  Forall (fun t => exists vs, good_row F atof atod is_inf qnan cp cols t vs) (concat (without_headers cp 0 (map (fun x => snd (snd x)) xs))) ->
  In O_end (log s) ->
  Spec_csvfile.delivers p F atof atod is_inf qnan cp cols (csv_instances cp (in_memory xs)) (Spec_par.delivered (log s)).
Proof.
  intros lb HL rng seeded draw shuf size_max p F atof atod is_inf qnan fzero cp rp xs cols dec M src src_end cores np pr prefetch reads bytes s HX HG HC HR HF HE.
  pose proof (csv_reading_same lb HL _ _ _ _ _ _ _ _ _ _ _ _ _ _ _ _ _ _ _ HX) as HY.
  eapply good_files; try eassumption; [|left; exact HE]. unfold in_memory. rewrite map_map. exact HF.
Qed.
Print Assumptions C91_good_rows_partial.

(* RecordIO with good messages. *)
Theorem C91_messages_partial : forall lb, sound lb -> forall V (vzero : V) parse (rng : Type) (seeded : rng) draw shuf size_max p h sc xs dec M src src_end
    bytes cores np pr prefetch reads s,
  pb_source_reading lb V vzero parse seeded draw shuf size_max p h sc xs dec M src src_end ->
  graph_params cores np pr = (prefetch, reads) -> 1 <= cores -> reachable dec bytes src src_end prefetch reads s ->
  Forall (fun b => good V sc (parse b)) (concat (map (fun x => snd (snd x)) xs)) -> In O_end (log s) ->
  exists bs, file_batches p (in_memory xs) bs /\
    Forall2 (fun e b => exists ms, messages V parse b = map Some ms /\ Forall (fits V sc) ms /\ example_of V sc (ba_size b) e ms)
      (Spec_par.delivered (log s)) bs.
Proof.
  intros lb HL V vzero parse rng seeded draw shuf size_max p h sc xs dec M src src_end bytes cores np pr prefetch reads s HX HG HC HR HF HE.
  pose proof (pb_same lb HL _ _ _ _ _ _ _ _ _ _ _ _ _ _ _ HX) as HY.
  eapply pb_good; try eassumption; [|left; exact HE]. unfold in_memory. rewrite map_map. exact HF.
Qed.
Print Assumptions C91_messages_partial.

(* ---------------- stores that cannot be decoded to the end ---------------- *)

(* A store that is truncated, corrupt, or ends inside a character: some of its first lines come out, and then the error. *)
Theorem C91_lines_fault_partial : forall lb, sound lb -> forall sf out P lines,
  carries_text lb (text_line_decode false) sf out (Fails P) -> has_lines (held sf out) lines ->
  exists k x, P x /\ failing (line_source lb sf) (Spec_inst.numbered (sf_id sf) (firstn k lines)) x.
Proof. intros. eapply lines_fail; eassumption. Qed.
Print Assumptions C91_lines_fault_partial.
Theorem C91_rows_fault_partial : forall lb, sound lb -> forall rp sf out P rows,
  carries_text lb (csv_decode rp) sf out (Fails P) -> csv_file rp (held sf out) rows ->
  exists k x, P x /\ csv_source lb rp sf = map Ok (firstn k rows) ++ [Throw x].
Proof. intros. eapply rows_fail; eassumption. Qed.
Print Assumptions C91_rows_fault_partial.
Theorem C91_recordio_fault_partial : forall lb, sound lb -> forall sf data P,
  carries lb sf data (Fails P) -> length data + 3 <= sf_fuel sf -> exists is x, failing (recordio_source lb sf) is x.
Proof. intros. eapply recordio_fails; eassumption. Qed.
Print Assumptions C91_recordio_fault_partial.

(* So a reader of such a dataset, read to the end, never reports end of data (the text-line reader; RecordIO in the same way, by C78). *)
Theorem C91_no_silent_end_partial : forall lb, sound lb -> forall (rng : Type) (seeded : rng) draw shuf size_max p xs sf post M src src_end
    (E : Type) (decode : batch Model_inst.instance -> dres E) bytes cores np pr prefetch reads s out P lines,
  Forall (lines_in lb) xs -> carries_text lb (text_line_decode false) sf out (Fails P) -> has_lines (held sf out) lines ->
  make_instance_reader seeded draw shuf size_max p (map (line_source lb) (map fst xs ++ sf :: post)) = Ok M ->
  (forall w g, 0 < w -> fst (draw w g) < w) ->
  p_take p = None -> (forall r, p_ratio p = Some r -> float_ratio r /\ keeps_some r) ->
  length (concat (map (fun x => snd (snd x)) xs)) + length lines < size_max -> 0 < p_batch p -> fed_well M (p_batch p) (p_last p) src src_end ->
  graph_params cores np pr = (prefetch, reads) -> 1 <= cores -> reachable decode bytes src src_end prefetch reads s ->
  ~ In O_end (log s).
Proof.
  intros lb HL rng seeded draw shuf size_max p xs sf post M src src_end E decode bytes cores np pr prefetch reads s out P lines HF Hc Hl HM Hd Ht Hk Hm Hb Hfed HG HC HR.
  destruct (lines_fail lb HL sf out P lines Hc Hl) as (k & x & HP & Hx).
  assert (HY : faulty (map (line_source lb) (map fst xs ++ sf :: post)) (text_instances (in_memory xs) ++ Spec_inst.numbered (sf_id sf) (firstn k lines)) x).
  { eexists _, _, _, _, _. split; [rewrite map_app; cbn [map]; reflexivity|]. split; [|split; [exact Hx|unfold text_instances; reflexivity]].
    rewrite map_map. rewrite lines_same by assumption. apply text_stores. exact (lines_ok lb xs HF). }
  refine (proj1 (fault_surfaces seeded draw shuf size_max Hd p _ _ x M src src_end decode bytes cores np pr prefetch reads s HY HM _ Hk _ Hb Hfed HG HC HR)).
  - unfold out_of_range, range_full. rewrite Ht. discriminate.
  - rewrite app_length. rewrite <- (map_length Model_text.bits (text_instances _)), bits_instances.
    replace (map snd (in_memory xs)) with (map (fun x => snd (snd x)) xs) by (unfold in_memory; rewrite map_map; reflexivity).
    rewrite <- (map_length Model_text.bits (Spec_inst.numbered _ _)), bits_numbered, firstn_length. lia.
Qed.
Print Assumptions C91_no_silent_end_partial.

(* ---------------- cases ---------------- *)

Definition toy_libs : libs := mk_libs nat 0 Props_gzip.toy toy_stops nat toy_open toy_cv 7.
Lemma toy_sound : sound toy_libs.
Proof. split; [exact toy_eager|]. split; [exact toy_checksummed|exact toy_converter]. Qed.

(* UTF-16 with a byte order mark, compressed, and UTF-8 with one, in pieces: each has the lines "A" and "é". *)
Definition gz_wide : source_file := mk_source_file 7 (mk_dstore Co_gzip (toy_gz wide2) [] false false) None 4%N 99.
Definition plain_narrow : source_file := mk_source_file 8 (mk_dstore Co_none narrow2 [1; 2] false false) None 3%N 99.
(* The compressed text cut off, so that it ends inside "é". *)
Definition gz_cut : source_file := mk_source_file 9 (mk_dstore Co_gzip (toy_gz wide2 ++ [1; 2; 66])%N [] false false) None 4%N 99.
Definition coded : list (source_file * (list byte * list (list byte))) :=
  [(gz_wide, (narrow2, [[65]; [195; 169]]%N)); (plain_narrow, (narrow2, [[65]; [195; 169]]%N))].
Definition coded_batches : list (batch Model_inst.instance) :=
  [mk_batch 0 [ins 7 0 [65]; ins 7 1 [195; 169]]%N 2; mk_batch 1 [ins 8 0 [65]; ins 8 1 [195; 169]]%N 2].

Lemma narrow2_lines sf : has_lines (held sf narrow2) [[65]; [195; 169]]%N.
Proof.
  exists utf8_bom, [([65]%N, eol_lf)], [195; 169]%N. split; [reflexivity|]. split; [right; reflexivity|].
  split; [intros (a & b & E); refine (no_bom_by_check _ _ a b E); reflexivity|].
  split; [repeat constructor; cbn; intuition discriminate|]. split; [repeat constructor; cbn; intuition discriminate|].
  split; [repeat split; cbn; intuition discriminate|reflexivity].
Qed.
Lemma gz_wide_lively : lively_file nat 0 Props_gzip.toy (toy_gz wide2) [] wide2 Ends.
Proof. apply C80_case. Qed.
Lemma coded_ok : Forall (lines_in toy_libs) coded.
Proof.
  constructor; [|constructor; [|constructor]]; (split; [|apply narrow2_lines]); cbn [fst snd].
  - exists wide2, Ends, T_complete. split; [split; [split; reflexivity|split; [exact gz_wide_lively|reflexivity]]|]. split; [discriminate|].
    split; [exact wide2_ok|]. split; [reflexivity|]. split; [right; right; right; cbn; lia|]. split; [exact narrow2_format|]. split; [reflexivity|cbn; lia].
  - exists narrow2, Ends, T_complete. split; [split; [split; reflexivity|split; reflexivity]|]. split; [discriminate|].
    split; [split; reflexivity|]. split; [reflexivity|]. split; [right; right; left; reflexivity|]. split; [exact narrow2_format|]. split; [reflexivity|cbn; lia].
Qed.
Lemma gz_cut_fails : carries_text toy_libs (text_line_decode false) gz_cut narrow2 (Fails (fun x => Inflate_err = x \/ x = Stream_err)).
Proof.
  exists (wide2 ++ [66])%N, (Fails (eq Inflate_err)), T_incomplete. split.
  - split; [split; reflexivity|]. split; [|reflexivity]. cbn [gz_cut sf_store d_comp d_bytes d_sched toy_libs l_z l_init l_step].
    pose proof (C79_truncated_file nat 0 Props_gzip.toy [(toy_gz wide2, wide2)] [1; 2; 66]%N [66]%N 1) as H. cbn [flat_map fst snd] in H.
    rewrite !app_nil_r in H. apply H; [vm_compute; discriminate|constructor; [split; [apply toy_gz_decodes|discriminate]|constructor]| |discriminate].
    apply (D_more _ _ 0 1%N [] 1 _ [66]%N); [reflexivity|]. apply (D_more _ _ 1 2%N [] 2 _ [66]%N); [reflexivity|].
    apply (D_more _ _ 2 66%N [66]%N 1 _ []); [reflexivity|constructor].
  - split; [discriminate|]. split; [exact wide2_bad|]. split; [reflexivity|]. split; [right; right; right; cbn; lia|]. split; [exact narrow2_format|]. split; [reflexivity|cbn; lia].
Qed.

Example C91_case : exists M,
  make_instance_reader 0 the_draw the_shuf 1000 the_params (map (fun x => line_source toy_libs (fst x)) coded) = Ok M /\
  Forall (lines_in toy_libs) coded /\
  fed_by M 2 last_pad (fun _ => coded_batches) (fun _ => None) /\
  option_map log (exec (fun b => dres_of (text_decode b)) (fun _ => 1) (fun _ => coded_batches) (fun _ => None) 2 2 (init 0) csv_run)
    = Some [O_example (mk_text_example [[65]; [195; 169]]%N 0); O_example (mk_text_example [[65]; [195; 169]]%N 0); O_end].
Proof.
  eexists. split; [reflexivity|]. split; [exact coded_ok|]. split; [|vm_compute; reflexivity].
  eapply (fed_plain 0 the_draw the_shuf 1000 the_params (map (fun x => line_source toy_libs (fst x)) coded) [_; _]);
    [|reflexivity|reflexivity|reflexivity|cbn; lia|reflexivity|reflexivity|intros w g Hw; exact Hw|intros; apply Permutation_refl| |cbn; lia|discriminate|].
  - rewrite lines_same by (exact toy_sound || exact coded_ok). exact (text_stores _ (lines_ok _ _ coded_ok)).
  - apply Nat.ltb_lt. reflexivity.
  - cbn [in_memory coded map concat app fst snd held tf_id]. apply (ba_full 2 last_pad 0 [_; _] [_; _]); [reflexivity|].
    apply (ba_full 2 last_pad 1 [_; _] []); [reflexivity|constructor].
Qed.
(* The cut one: here no line, as the converter reads ahead, and the error. *)
Example C91_fault_case :
  carries_text toy_libs (text_line_decode false) gz_cut narrow2 (Fails (fun x => Inflate_err = x \/ x = Stream_err)) /\ has_lines (held gz_cut narrow2) [[65]; [195; 169]]%N /\
  sopen (line_source toy_libs gz_cut) = Ok (Some ([], Throw Inflate_err)).
Proof. split; [exact gz_cut_fails|]. split; [apply narrow2_lines|]. vm_compute. reflexivity. Qed.

From Coq Require String Ascii.
Import String.StringSyntax.
Local Open Scope string_scope.
Local Open Scope list_scope.
Local Open Scope nat_scope.

(* The CSV files of C76, the second one compressed; the RecordIO files of C77, the first one compressed. *)
Definition csv_xs : list (source_file * (list byte * list str)) :=
  [(mk_source_file 7 (mk_dstore Co_none (tf_text (csv_1 50%N)) [1; 2] true false) None 3%N 99, (tf_text (csv_1 50%N), [tx "a,b"; tx "1,x"; 50%N :: tx ",y"]));
   (mk_source_file 8 (mk_dstore Co_gzip (toy_gz (tf_text csv_2)) [] false false) None 5%N 99, (tf_text csv_2, [tx "a,b"; tx "3,z"]))].
Definition pb_xs : list (source_file * (list byte * list (list byte))) :=
  [(mk_source_file 7 (mk_dstore Co_gzip (toy_gz (rio rio_1)) [] false false) None 5%N 999, (rio rio_1, [[1]; [2]]%N));
   (mk_source_file 8 (mk_dstore Co_infer (rio (rio_2 1%N)) [3] true true) None 64%N 999, (rio (rio_2 1%N), [[1]]%N))].

Lemma held_csv rp f rows sf : csv_file rp f rows -> csv_file rp (held sf (tf_text f)) rows.
Proof. intros (_ & H1 & _ & H). split; [reflexivity|]. split; [exact H1|]. split; [left; reflexivity|exact H]. Qed.
Lemma one_gz data : data <> [] -> (N.of_nat (length (toy_gz data)) <= 512 * 1024)%N -> lively_file nat 0 Props_gzip.toy (toy_gz data) [] data Ends.
Proof.
  intros Hd Hl. pose proof (C79_complete_file nat 0 Props_gzip.toy [(toy_gz data, data)]) as H. cbn [flat_map fst snd] in H. rewrite !app_nil_r in H.
  apply H; [exact Hl|]. constructor; [split; [apply toy_gz_decodes|exact Hd]|constructor].
Qed.
Lemma the_rp_skips text : one_bom text -> text_format (csv_decode the_rp) text.
Proof. intro H. apply F_csv; [exact H|]. right. left. split; [reflexivity|]. split; [reflexivity|discriminate]. Qed.
Lemma csv_xs_ok : Forall (rows_in toy_libs the_rp) csv_xs.
Proof.
  pose proof (csv_files_ok 50%N (or_introl eq_refl)) as HF. inversion HF as [|? ? H1 HF']. inversion HF' as [|? ? H2 _]. cbn [fst snd] in H1, H2.
  constructor; [|constructor; [|constructor]]; split; [|apply held_csv, H1| |apply held_csv, H2]; cbn [fst snd].
  - exists (tf_text (csv_1 50%N)), Ends, T_complete. split; [split; [split; reflexivity|split; reflexivity]|]. split; [discriminate|].
    split; [split; reflexivity|]. split; [reflexivity|]. split; [left; split; [discriminate|reflexivity]|]. split; [|split; [reflexivity|cbn; lia]].
    apply the_rp_skips. split; [intros ys E; discriminate E|]. intros _ (a & b & E). refine (no_bom_by_check _ _ a b E). reflexivity.
  - exists (tf_text csv_2), Ends, T_complete. split; [split; [split; reflexivity|split; [apply one_gz; [discriminate|vm_compute; discriminate]|reflexivity]]|]. split; [discriminate|].
    split; [split; reflexivity|]. split; [reflexivity|]. split; [right; right; left; reflexivity|]. split; [|split; [reflexivity|cbn; lia]].
    apply the_rp_skips. split.
    + intros ys E. injection E as <-. intros (a & b & E). refine (no_bom_by_check _ _ a b E). reflexivity.
    + intro N. exfalso. apply N. eexists. reflexivity.
Qed.
Example C91_csv_case : exists M s,
  csv_source_reading toy_libs 0 the_draw the_shuf 1000 the_params nat Props_csv.toy Props_csv.toy no_inf 0 0 (the_cp B_error) the_rp csv_xs [int_col; str_col]
    (csv_dec B_error) M (fun _ => csv_batches 50%N) (fun _ => None) /\
  reachable (csv_dec B_error) (fun _ => 1) (fun _ => csv_batches 50%N) (fun _ => None) 2 2 s /\
  log s = [O_example ([[iv 1; iv 2]; [sv "x"; sv "y"]], 0); O_example ([[iv 3; iv 0]; [sv "z"; sv ""]], 1); O_end].
Proof.
  destruct (csv_case B_error 50%N (or_introl eq_refl)) as (M & HM). exists M. eexists. split.
  - destruct HM as (_ & H2 & (r & out & HS & HM) & H). split; [exact csv_xs_ok|]. split; [exact H2|]. split; [|exact H].
    exists r, out. split; [|rewrite <- HM; f_equal; destruct out as [|? [|? [|]]]; reflexivity].
    replace (map (fun x => csv_source toy_libs the_rp (fst x)) csv_xs) with (map (fun fl => csv_rows the_rp (fst fl)) (csv_fls 50%N)) by (vm_compute; reflexivity).
    exact HS.
  - split; [exists csv_run; vm_compute; reflexivity|reflexivity].
Qed.
Example C91_recordio_case : exists M s,
  pb_source_reading toy_libs Z 0%Z toy_parse 0 the_draw the_shuf 1000 the_params B_error s_3 pb_xs (pb_dec B_error) M (fun _ => pb_batches 1%N) (fun _ => None) /\
  reachable (pb_dec B_error) (fun _ => 1) (fun _ => pb_batches 1%N) (fun _ => None) 2 2 s /\ In O_end (log s).
Proof.
  destruct (pb_case B_error 1%N (or_introl eq_refl)) as (M & HM). exists M. eexists. split.
  - destruct HM as (H1 & H2 & H3 & HM & H). split; [|split; [exact H2|split; [exact H3|split; [|exact H]]]].
    + inversion H1 as [|? ? P1 P']. inversion P' as [|? ? P2 _]. cbn [fst snd] in P1, P2. destruct P1 as [_ P1], P2 as [_ P2].
      constructor; [|constructor; [|constructor]].
      * split; [split; [split; reflexivity|split; [apply one_gz; [discriminate|vm_compute; discriminate]|reflexivity]]|].
        split; [apply Nat.leb_le; vm_compute; reflexivity|]. split; [reflexivity|exact P1].
      * split; [split; [split; reflexivity|split; reflexivity]|]. split; [apply Nat.leb_le; vm_compute; reflexivity|]. split; [reflexivity|exact P2].
    + replace (map (fun x => recordio_source toy_libs (fst x)) pb_xs) with (map (fun fl => recordio_store (fst fl)) (pb_fls 1%N)) by (vm_compute; reflexivity).
      exact HM.
  - split; [exists csv_run; vm_compute; reflexivity|cbn; auto].
Qed.
