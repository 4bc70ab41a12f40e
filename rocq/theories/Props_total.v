(* Whole readers over files of one format, from the bytes and the options to what the calls return: C97 (CSV), C98 (RecordIO-protobuf), C99 (images). *)
From Coq Require Import Permutation.
From Verif Require Import Common Spec_csvtok Model_rec Spec_rec Model_inst Spec_inst Model_par Spec_par Model_text Spec_text
  Model_num Model_csv Spec_csv Proof_csv Model_csvfile Spec_csvfile Model_whole Spec_whole Spec_total Proof_total Props_par Props_csv Props_text Props_csvfile.
From Coq Require String Ascii.
Import String.StringSyntax.
Local Open Scope string_scope.
Local Open Scope list_scope.
Local Open Scope nat_scope.
From Verif Require Model_tsr Model_pb Spec_pb Model_pbfile Spec_pbfile Proof_pbfile Props_pb Props_pbfile Model_image Spec_image Model_imgfile Spec_imgfile Proof_imgfile Props_image Props_imgfile.

(* ---------------- C97 ---------------- *)

(* Whatever the calls and the interleaving: before the first example, end of data or error is reported, the reader has looked at its first instance
   successfully, and inferred the schema from it. *)
Theorem C97_schema_first : forall (A E : Type) (M : machine A) size last (decode : batch A -> dres E) bytes prefetch reads l w,
  wexec M size last decode bytes prefetch reads (w_init M) l = Ok (Some w) -> log (w_par w) <> [] \/ w_schema w = true ->
  exists l1 w0 l2 o, l = l1 ++ W_schema true :: l2 /\ wexec M size last decode bytes prefetch reads (w_init M) l1 = Ok (Some w0) /\
    w_schema w0 = false /\ log (w_par w0) = [] /\ pc (w_par w0) = c_idle /\ fst (b_peek M (snd (w_reader w0))) = Ok o /\
    wexec M size last decode bytes prefetch reads w0 (W_schema true :: l2) = Ok (Some w).
Proof. exact @schema_first. Qed.
Print Assumptions C97_schema_first.

(* The features are those of the first one of the selected rows.  If all data rows have values under them: once end of data has been reported, or
   more calls have returned than there are rows, the examples hold the values of exactly the selected data rows of all files, each once. *)
Theorem C97_good_rows_partial : forall (rng : Type) (seeded : rng) draw shuf size_max p F atof atod is_inf qnan fzero cp rp fls M
    dec bytes cores np pr prefetch reads i attrs cols w,
  csv_dataset F atod is_inf qnan cp rp fls seeded draw shuf size_max p M ->
  csv_decoding F atof atod is_inf qnan fzero cp (p_batch p) cols dec ->
  graph_params cores np pr = (prefetch, reads) -> 1 <= cores -> overrides_are_maps cp ->
  run_from M (p_batch p) (p_last p) dec bytes prefetch reads i w -> csv_inferred F atod is_inf qnan cp rp fls i attrs cols ->
  exists names l, csv_described F atod is_inf qnan cp p fls i names l attrs /\
    (Forall (fun t => exists vs, row_values F atof atod is_inf qnan cp names l attrs t vs) (data_rows cp fls) ->
     In O_end (log (w_par w)) \/ length (csv_instances cp fls) < length (log (w_par w)) ->
     delivers_rows F atof atod is_inf qnan cp p names l attrs (csv_instances cp fls) (delivered (log (w_par w)))).
Proof. intros. eapply csv_total_good; eassumption. Qed.
Print Assumptions C97_good_rows_partial.

(* If bad rows are errors and end of data has been reported, then the rows of all batches had values, and the examples hold them. *)
Theorem C97_error_partial : forall (rng : Type) (seeded : rng) draw shuf size_max p F atof atod is_inf qnan fzero cp rp fls M
    dec bytes cores np pr prefetch reads i attrs cols w,
  csv_dataset F atod is_inf qnan cp rp fls seeded draw shuf size_max p M ->
  csv_decoding F atof atod is_inf qnan fzero cp (p_batch p) cols dec ->
  graph_params cores np pr = (prefetch, reads) -> 1 <= cores -> overrides_are_maps cp ->
  run_from M (p_batch p) (p_last p) dec bytes prefetch reads i w -> csv_inferred F atod is_inf qnan cp rp fls i attrs cols ->
  p_lenient cp = true -> Forall (fun t => closed cp t /\ comparable cp t) (data_rows cp fls) ->
  p_bad cp = B_error -> In O_end (log (w_par w)) ->
  exists names l, csv_described F atod is_inf qnan cp p fls i names l attrs /\
    delivers_rows F atof atod is_inf qnan cp p names l attrs (csv_instances cp fls) (delivered (log (w_par w))).
Proof. intros. eapply csv_total_error; eassumption. Qed.
Print Assumptions C97_error_partial.

(* If batches with bad rows are skipped: the examples are those of the other batches. *)
Theorem C97_skip_partial : forall (rng : Type) (seeded : rng) draw shuf size_max p F atof atod is_inf qnan fzero cp rp fls M
    dec bytes cores np pr prefetch reads i attrs cols w,
  csv_dataset F atod is_inf qnan cp rp fls seeded draw shuf size_max p M ->
  csv_decoding F atof atod is_inf qnan fzero cp (p_batch p) cols dec ->
  graph_params cores np pr = (prefetch, reads) -> 1 <= cores -> overrides_are_maps cp ->
  run_from M (p_batch p) (p_last p) dec bytes prefetch reads i w -> csv_inferred F atod is_inf qnan cp rp fls i attrs cols ->
  p_lenient cp = true -> Forall (fun t => closed cp t /\ comparable cp t) (data_rows cp fls) ->
  p_bad cp = B_skip \/ p_bad cp = B_skip_warn -> In O_end (log (w_par w)) ->
  exists names l, csv_described F atod is_inf qnan cp p fls i names l attrs /\
  exists ys zs bs cs, Spec_inst.selected p (csv_instances cp fls) ys /\ ordered p ys zs /\
    batches_of (p_batch p) (effective (p_last p)) 0 zs bs /\
    spared (fun x => forall vs, ~ row_values F atof atod is_inf qnan cp names l attrs (Model_text.bits x) vs) bs cs /\
    Forall2 (fun e b => exists vss, Forall2 (row_values F atof atod is_inf qnan cp names l attrs) (map Model_text.bits (ba_instances b)) vss /\
      table_of F attrs (fst e) vss /\ snd e = ba_size b - length vss) (delivered (log (w_par w))) cs.
Proof. intros. eapply csv_total_skip; eassumption. Qed.
Print Assumptions C97_skip_partial.

(* If bad rows are padded: the examples hold the rows of their batches that have values, in order, and the others are counted as padding. *)
Theorem C97_pad_partial : forall (rng : Type) (seeded : rng) draw shuf size_max p F atof atod is_inf qnan fzero cp rp fls M
    dec bytes cores np pr prefetch reads i attrs cols w,
  csv_dataset F atod is_inf qnan cp rp fls seeded draw shuf size_max p M ->
  csv_decoding F atof atod is_inf qnan fzero cp (p_batch p) cols dec ->
  graph_params cores np pr = (prefetch, reads) -> 1 <= cores -> overrides_are_maps cp ->
  run_from M (p_batch p) (p_last p) dec bytes prefetch reads i w -> csv_inferred F atod is_inf qnan cp rp fls i attrs cols ->
  p_lenient cp = true -> Forall (fun t => closed cp t /\ comparable cp t) (data_rows cp fls) ->
  p_bad cp = B_pad \/ p_bad cp = B_pad_warn ->
  In O_end (log (w_par w)) \/ length (csv_instances cp fls) < length (log (w_par w)) ->
  exists names l, csv_described F atod is_inf qnan cp p fls i names l attrs /\
  exists ys zs bs, Spec_inst.selected p (csv_instances cp fls) ys /\ ordered p ys zs /\
    batches_of (p_batch p) (effective (p_last p)) 0 zs bs /\
    Forall2 (fun e b => exists vss, kept_rows F atof atod is_inf qnan cp names l attrs (map Model_text.bits (ba_instances b)) vss /\
      table_of F attrs (fst e) vss /\ snd e = ba_size b - length vss) (delivered (log (w_par w))) bs.
Proof. intros. eapply csv_total_pad; eassumption. Qed.
Print Assumptions C97_pad_partial.

(* The files of C76, with a good row "2,y" (c = 50) or a bad one "q,y" (c = 113). *)
Lemma csv_data bad c M : c = 50%N \/ c = 113%N ->
  make_instance_reader 0 the_draw the_shuf 1000 the_params (csv_stores (csv_fls c) (csv_out c)) = Ok M ->
  csv_dataset nat toy no_inf 0 (the_cp bad) the_rp (csv_fls c) 0 the_draw the_shuf 1000 the_params M.
Proof.
  intros Hc HM. destruct (csv_case bad c Hc) as (M' & H1 & H2 & _ & H4 & H5 & H6 & H7 & H8 & _).
  split; [exact H1|]. split; [exact H2|]. split; [|exact (conj H4 (conj H5 (conj H6 (conj H7 H8))))].
  assert (HS : exists r, csv_session nat toy no_inf 0 (the_cp bad) (map (fun fl => csv_rows the_rp (fst fl)) (csv_fls c)) r 2 (csv_out c)).
  { eexists. eapply (Cs_open _ _ _ _ _ _ _ 1 [_]).
    - eapply (Cs_open _ _ _ _ _ _ _ 0 []); [apply Cs_new|reflexivity|]. destruct Hc; subst c; vm_compute; reflexivity.
    - reflexivity.
    - vm_compute. reflexivity. }
  destruct HS as (r & HS). exists r, (csv_out c). auto.
Qed.
(* The first row makes "a" an integer feature, of 64 bits. *)
Definition long_col : col := mk_col (D_int i64) false.
Definition total_dec (bad : beh) (b : batch instance) : dres (list (list (Model_num.val nat)) * nat) :=
  dres_of (finish_example nat (ba_size b) (decode_ser nat toy toy no_inf 0 (the_cp bad) [long_col; str_col]
    (map Model_text.bits (ba_instances b)) 0 (make_tensors nat 0 [long_col; str_col] (ba_size b)))).
Lemma csv_dec_ok bad : csv_decoding nat toy toy no_inf 0 0 (the_cp bad) 2 [long_col; str_col] (total_dec bad).
Proof.
  intros b H1 H2. eexists. split; [|reflexivity]. unfold decode.
  replace (runs_serial (the_cp bad) [long_col; str_col] (map Model_text.bits (ba_instances b))) with true; [reflexivity|].
  unfold runs_serial. rewrite map_length. cbn [length].
  destruct (length (ba_instances b)) as [|[|[|n]]]; [| | |lia]; destruct bad; reflexivity.
Qed.
Lemma csv_infers bad c : c = 50%N \/ c = 113%N ->
  csv_inferred nat toy no_inf 0 (the_cp bad) the_rp (csv_fls c) (ins 7 0 (tx "1,x")) [(tx "a", D_int i64); (tx "b", D_string)] [long_col; str_col].
Proof.
  intro Hc. do 3 eexists. split; [|split; [apply Nat.lt_0_1|split; [|]]].
  - eapply Cn_open; [apply Cn_new|reflexivity|]. destruct Hc; subst c; vm_compute; reflexivity.
  - destruct Hc; subst c; vm_compute; reflexivity.
  - reflexivity.
Qed.
Definition whole_run : list waction := map W_act csv_run.

Ltac run_it := exists [], (w_init _), whole_run; split; [reflexivity|]; split; [split; [reflexivity|split; vm_compute; reflexivity]|]; vm_compute; reflexivity.
Ltac values := eexists; split; [apply fields_tokenize; vm_compute; reflexivity|]; split; [reflexivity|]; split;
  [|intros [|[|k]] j a d Hk Ha; cbn in Hk, Ha; try discriminate; [| |destruct k; discriminate];
    injection Hk as <-; injection Ha as <- <-; do 2 eexists; (split; [reflexivity|]); (split; [reflexivity|]); (split; [intros [X _]; discriminate X|]);
    vm_compute; reflexivity]; reflexivity.

Example C97_case : exists M w,
  csv_dataset nat toy no_inf 0 (the_cp B_error) the_rp (csv_fls 50%N) 0 the_draw the_shuf 1000 the_params M /\
  run_from M 2 last_pad (total_dec B_error) (fun _ => 1) 2 2 (ins 7 0 (tx "1,x")) w /\
  log (w_par w) = [O_example ([[iv 1; iv 2]; [sv "x"; sv "y"]], 0); O_example ([[iv 3; iv 0]; [sv "z"; sv ""]], 1); O_end] /\
  Forall (fun t => exists vs, row_values nat toy toy no_inf 0 (the_cp B_error) [tx "a"; tx "b"] [0; 1] [(tx "a", D_int i64); (tx "b", D_string)] t vs)
    (data_rows (the_cp B_error) (csv_fls 50%N)).
Proof.
  eexists. eexists. split; [apply csv_data; [now left|reflexivity]|]. split; [run_it|].
  split; [reflexivity|]. apply Forall_cons; [exists [iv 1; sv "x"]; values|].
  apply Forall_cons; [exists [iv 2; sv "y"]; values|]. apply Forall_cons; [exists [iv 3; sv "z"]; values|constructor].
Qed.

(* The other hypotheses, for all theorems; and a bad row, with padding and with skipping. *)
Example C97_case_bad :
  (forall bad, csv_decoding nat toy toy no_inf 0 0 (the_cp bad) 2 [long_col; str_col] (total_dec bad) /\ overrides_are_maps (the_cp bad) /\
    csv_inferred nat toy no_inf 0 (the_cp bad) the_rp (csv_fls 113%N) (ins 7 0 (tx "1,x")) [(tx "a", D_int i64); (tx "b", D_string)] [long_col; str_col]) /\
  graph_params 2 0 0 = (2, 2) /\
  Forall (fun t => closed (the_cp B_pad) t /\ comparable (the_cp B_pad) t) (data_rows (the_cp B_pad) (csv_fls 113%N)) /\
  (exists M w, csv_dataset nat toy no_inf 0 (the_cp B_pad) the_rp (csv_fls 113%N) 0 the_draw the_shuf 1000 the_params M /\
    run_from M 2 last_pad (total_dec B_pad) (fun _ => 1) 2 2 (ins 7 0 (tx "1,x")) w /\
    log (w_par w) = [O_example ([[iv 1; iv 0]; [sv "x"; sv ""]], 1); O_example ([[iv 3; iv 0]; [sv "z"; sv ""]], 1); O_end]) /\
  (exists M, csv_dataset nat toy no_inf 0 (the_cp B_skip) the_rp (csv_fls 113%N) 0 the_draw the_shuf 1000 the_params M) /\
  sequential (total_dec B_skip) (csv_batches 113%N) = [([[iv 3; iv 0]; [sv "z"; sv ""]], 1)].
Proof.
  split; [|split; [reflexivity|split; [|split; [|split; [|vm_compute; reflexivity]]]]].
  - intro bad. split; [apply csv_dec_ok|]. split; [split; constructor|]. apply csv_infers. now right.
  - repeat constructor; try (left; reflexivity); closed_row.
  - eexists. eexists. split; [apply csv_data; [now right|reflexivity]|]. split; [run_it|reflexivity].
  - eexists. apply csv_data; [now right|reflexivity].
Qed.

(* ---------------- C98 ---------------- *)

Section Pb.
Import Model_tsr Model_pb Spec_pb Model_pbfile Spec_pbfile Proof_pbfile.

(* The schema is that of the first one of the selected messages; if all payloads are good under it: the examples hold the selected messages of all
   files, each once. *)
Theorem C98_good : forall V (vzero : V) parse (rng : Type) (seeded : rng) draw shuf size_max p h sc fls dec M bytes cores np pr prefetch reads i m w,
  pb_dataset V parse seeded draw shuf size_max p fls M -> pb_decoding V vzero parse (p_batch p) h sc dec ->
  graph_params cores np pr = (prefetch, reads) -> 1 <= cores ->
  run_from M (p_batch p) (p_last p) dec bytes prefetch reads i w ->
  parse (Model_text.bits i) = Some m -> (Z.of_nat (p_batch p) < 2 ^ 63)%Z -> NoDup (map fst (m_entries V m)) ->
  Forall (fun e => describable V (Z.of_nat (p_batch p)) (snd e)) (m_entries V m) ->
  infer V (Z.of_nat (p_batch p)) (Some (parse (Model_text.bits i))) = Ok (Some sc) ->
  Forall (fun b => good V sc (parse b)) (concat (map snd fls)) ->
  In O_end (log (w_par w)) \/ length (concat (map snd fls)) < length (log (w_par w)) ->
  pb_described parse p fls i sc /\ exists bs, file_batches p fls bs /\
    Forall2 (fun e b => exists ms, messages V parse b = map Some ms /\ Forall (fits V sc) ms /\ example_of V sc (ba_size b) e ms)
      (delivered (log (w_par w))) bs.
Proof.
  intros V vzero parse rng seeded draw shuf size_max p h sc fls dec M bytes cores np pr prefetch reads i m w HD Hdec HG HC HR Hm Hz Hn Hs HI Hgood HE.
  destruct (pb_whole V vzero parse seeded draw shuf size_max p h sc fls dec M bytes cores np pr prefetch reads HG HC HD Hdec i m w HR Hm Hz Hn Hs HI)
    as (H1 & src & src_end & H2 & H3). split; [exact H1|]. eapply pb_good; eassumption.
Qed.
Print Assumptions C98_good.

(* If bad instances are errors and end of data has been reported, then the instances of all batches were good. *)
Theorem C98_error : forall V (vzero : V) parse (rng : Type) (seeded : rng) draw shuf size_max p sc fls dec M bytes cores np pr prefetch reads i m w,
  pb_dataset V parse seeded draw shuf size_max p fls M -> pb_decoding V vzero parse (p_batch p) B_error sc dec ->
  graph_params cores np pr = (prefetch, reads) -> 1 <= cores ->
  run_from M (p_batch p) (p_last p) dec bytes prefetch reads i w ->
  parse (Model_text.bits i) = Some m -> (Z.of_nat (p_batch p) < 2 ^ 63)%Z -> NoDup (map fst (m_entries V m)) ->
  Forall (fun e => describable V (Z.of_nat (p_batch p)) (snd e)) (m_entries V m) ->
  infer V (Z.of_nat (p_batch p)) (Some (parse (Model_text.bits i))) = Ok (Some sc) ->
  In O_end (log (w_par w)) ->
  pb_described parse p fls i sc /\ exists bs, file_batches p fls bs /\
    Forall2 (fun e b => exists ms, messages V parse b = map Some ms /\ Forall (fits V sc) ms /\ example_of V sc (ba_size b) e ms)
      (delivered (log (w_par w))) bs.
Proof.
  intros V vzero parse rng seeded draw shuf size_max p sc fls dec M bytes cores np pr prefetch reads i m w HD Hdec HG HC HR Hm Hz Hn Hs HI HE.
  destruct (pb_whole V vzero parse seeded draw shuf size_max p B_error sc fls dec M bytes cores np pr prefetch reads HG HC HD Hdec i m w HR Hm Hz Hn Hs HI)
    as (H1 & src & src_end & H2 & H3). split; [exact H1|]. eapply pb_error; try eassumption; reflexivity.
Qed.
Print Assumptions C98_error.

(* If batches with bad instances are skipped: the examples are those of the other batches. *)
Theorem C98_skip : forall V (vzero : V) parse (rng : Type) (seeded : rng) draw shuf size_max p h sc fls dec M bytes cores np pr prefetch reads i m w,
  pb_dataset V parse seeded draw shuf size_max p fls M -> pb_decoding V vzero parse (p_batch p) h sc dec ->
  graph_params cores np pr = (prefetch, reads) -> 1 <= cores ->
  run_from M (p_batch p) (p_last p) dec bytes prefetch reads i w ->
  parse (Model_text.bits i) = Some m -> (Z.of_nat (p_batch p) < 2 ^ 63)%Z -> NoDup (map fst (m_entries V m)) ->
  Forall (fun e => describable V (Z.of_nat (p_batch p)) (snd e)) (m_entries V m) ->
  infer V (Z.of_nat (p_batch p)) (Some (parse (Model_text.bits i))) = Ok (Some sc) ->
  h = B_skip \/ h = B_skip_warn -> In O_end (log (w_par w)) \/ length (concat (map snd fls)) < length (log (w_par w)) ->
  pb_described parse p fls i sc /\ exists bs cs, file_batches p fls bs /\ spared (fun x => ~ good V sc (parse (Model_text.bits x))) bs cs /\
    Forall2 (fun e b => exists ms, messages V parse b = map Some ms /\ Forall (fits V sc) ms /\ example_of V sc (ba_size b) e ms)
      (delivered (log (w_par w))) cs.
Proof.
  intros V vzero parse rng seeded draw shuf size_max p h sc fls dec M bytes cores np pr prefetch reads i m w HD Hdec HG HC HR Hm Hz Hn Hs HI Hh HE.
  destruct (pb_whole V vzero parse seeded draw shuf size_max p h sc fls dec M bytes cores np pr prefetch reads HG HC HD Hdec i m w HR Hm Hz Hn Hs HI)
    as (H1 & src & src_end & H2 & H3). split; [exact H1|]. eapply pb_skip; eassumption.
Qed.
Print Assumptions C98_skip.

(* If bad instances are padded, provided that the features are dense or the faults are found early (otherwise C42 refutes it). *)
Theorem C98_pad_partial : forall V (vzero : V) parse (rng : Type) (seeded : rng) draw shuf size_max p h sc fls dec M bytes cores np pr prefetch reads i m w,
  pb_dataset V parse seeded draw shuf size_max p fls M -> pb_decoding V vzero parse (p_batch p) h sc dec ->
  graph_params cores np pr = (prefetch, reads) -> 1 <= cores ->
  run_from M (p_batch p) (p_last p) dec bytes prefetch reads i w ->
  parse (Model_text.bits i) = Some m -> (Z.of_nat (p_batch p) < 2 ^ 63)%Z -> NoDup (map fst (m_entries V m)) ->
  Forall (fun e => describable V (Z.of_nat (p_batch p)) (snd e)) (m_entries V m) ->
  infer V (Z.of_nat (p_batch p)) (Some (parse (Model_text.bits i))) = Ok (Some sc) ->
  h_pad h = true ->
  has_sparse sc = false \/ Forall (fun b => good V sc (parse b) \/ found_early V sc (parse b)) (concat (map snd fls)) ->
  In O_end (log (w_par w)) \/ length (concat (map snd fls)) < length (log (w_par w)) ->
  pb_described parse p fls i sc /\ exists bs, file_batches p fls bs /\
    Forall2 (fun e b => exists ms, goods V sc (messages V parse b) ms /\ example_of V sc (ba_size b) e ms) (delivered (log (w_par w))) bs.
Proof.
  intros V vzero parse rng seeded draw shuf size_max p h sc fls dec M bytes cores np pr prefetch reads i m w HD Hdec HG HC HR Hm Hz Hn Hs HI Hh Hf HE.
  destruct (pb_whole V vzero parse seeded draw shuf size_max p h sc fls dec M bytes cores np pr prefetch reads HG HC HD Hdec i m w HR Hm Hz Hn Hs HI)
    as (H1 & src & src_end & H2 & H3). split; [exact H1|]. eapply pb_pad; eassumption.
Qed.
Print Assumptions C98_pad_partial.

(* The files of C77, with a good instance (c = 1) or a bad one (c = 9).  The schema is that of the first instance, for batches of two. *)
Import Proof_pb_props Props_pb Props_pbfile.
Definition s_two : schema := match infer Z 2 (Some (Some m_1)) with Ok (Some s) => s | _ => mk_schema [] [] end.
Definition two_dec (h : beh) (b : batch Model_inst.instance) : dres (example (feature Z)) :=
  dres_of (serial_outcome Z 0%Z h (ba_size b) s_two (messages Z toy_parse b)).
Lemma two_fits_1 : fits Z s_two m_1.
Proof.
  apply (Proof_pb_props.infer_fits Z 2); [reflexivity|]. cbn. each; intros dt t E; cbn in E; injection E as <- <-; cbn; split; intros S; try reflexivity.
  - destruct S as [S|[S _]]; cbn in S; congruence.
  - split; [reflexivity|each; lia].
  - destruct S. left. discriminate.
  - split; [reflexivity|each; lia].
  - destruct S. left. discriminate.
Qed.
Lemma two_fits_2 : fits Z s_two m_2.
Proof.
  apply (Proof_pb_props.infer_fits Z 2); [reflexivity|]. cbn. each; intros dt t E; cbn in E; injection E as <- <-; cbn; split; intros S; try reflexivity.
  - destruct S as [S|[S _]]; cbn in S; congruence.
  - split; [reflexivity|each; lia].
  - destruct S. right. split; [reflexivity|discriminate].
  - split; [reflexivity|each; lia].
  - destruct S. left. discriminate.
Qed.
Lemma pb_data c M : c = 1%N \/ c = 9%N ->
  make_instance_reader 0 the_draw the_shuf 1000 the_params (map (fun fl => recordio_store (fst fl)) (pb_fls c)) = Ok M ->
  pb_dataset Z toy_parse 0 the_draw the_shuf 1000 the_params (pb_fls c) M.
Proof.
  intros Hc HM. destruct (pb_case B_error c Hc) as (M' & H1 & H2 & _ & _ & H4 & H5 & H6 & H7 & H8 & _).
  exact (conj H1 (conj H2 (conj HM (conj H4 (conj H5 (conj H6 (conj H7 H8))))))).
Qed.
Lemma m_1_describable : NoDup (map fst (m_entries Z m_1)) /\ Forall (fun e => describable Z 2 (snd e)) (m_entries Z m_1).
Proof.
  split; [apply (m_1_clean _ eq_refl)|]. cbn. each.
  - do 2 eexists. split; [reflexivity|]. cbn. split; [congruence|]. split; [split; [each; lia|reflexivity]|]. intros [H|[H _]]; cbn in H; congruence.
  - do 2 eexists. split; [reflexivity|]. cbn. split; [discriminate|]. split; [split; [each; lia|reflexivity]|]. intros _. unfold Spec_tsr.positive. each; lia.
  - do 2 eexists. split; [reflexivity|]. cbn. split; [discriminate|]. split; [split; [each; lia|reflexivity]|]. intros _. unfold Spec_tsr.positive. each; lia.
Qed.
Example C98_case :
  (exists M w, pb_dataset Z toy_parse 0 the_draw the_shuf 1000 the_params (pb_fls 1%N) M /\
    run_from M 2 last_pad (two_dec B_error) (fun _ => 1) 2 2 (ins 7 0 [1%N]) w /\
    In O_end (log (w_par w)) /\ map e_padding (delivered (log (w_par w))) = [0; 1]%Z /\
    map (fun e => nth_error (e_features e) 0) (delivered (log (w_par w))) =
      [Some (F_dense Z [2; 2] [1; 2; 3; 4]); Some (F_dense Z [2; 2] [1; 2; 0; 0])]%Z) /\
  (forall h, pb_decoding Z 0%Z toy_parse 2 h s_two (two_dec h)) /\
  toy_parse [1%N] = Some m_1 /\ NoDup (map fst (m_entries Z m_1)) /\ Forall (fun e => describable Z 2 (snd e)) (m_entries Z m_1) /\
  infer Z 2 (Some (toy_parse [1%N])) = Ok (Some s_two) /\
  Forall (fun b => good Z s_two (toy_parse b)) (concat (map snd (pb_fls 1%N))) /\
  (exists M, pb_dataset Z toy_parse 0 the_draw the_shuf 1000 the_params (pb_fls 9%N) M) /\
  map e_padding (sequential (two_dec B_skip) (pb_batches 9%N)) = [0]%Z /\
  map e_padding (sequential (two_dec B_pad) (pb_batches 9%N)) = [0; 2]%Z /\
  Forall (fun b => good Z s_two (toy_parse b) \/ found_early Z s_two (toy_parse b)) (concat (map snd (pb_fls 9%N))).
Proof.
  split; [|split; [|split; [reflexivity|split; [apply m_1_describable|split; [apply m_1_describable|split; [reflexivity|split; [|split; [|split; [|split]]]]]]]]].
  - eexists. eexists. split; [apply pb_data; [now left|reflexivity]|]. split; [run_it|]. split; [cbn; auto|]. split; reflexivity.
  - intros h b H1 H2. eexists. split; [|reflexivity]. apply db_computes; [|reflexivity]. unfold messages. rewrite map_length.
    destruct (length (ba_instances b)) as [|[|[|n]]]; [| | |lia]; destruct h; reflexivity.
  - cbn [pb_fls map snd concat app]. repeat (apply Forall_cons; [eexists; split; [reflexivity|]; auto using two_fits_1, two_fits_2|]). constructor.
  - eexists. apply pb_data; [now right|reflexivity].
  - vm_compute. reflexivity.
  - vm_compute. reflexivity.
  - cbn [pb_fls map snd concat app]. do 2 (apply Forall_cons; [left; eexists; split; [reflexivity|]; auto using two_fits_1, two_fits_2|]).
    constructor; [|constructor]. right. intros m E. discriminate.
Qed.
End Pb.

(* ---------------- C99 ---------------- *)

Section Image.
Import Model_image Spec_image Model_imgfile Spec_imgfile Proof_imgfile.

(* If all images are good, the examples hold the selected images of all files, each once, in the order asked for. *)
Theorem C99_good_partial : forall imdecode cv_resize ip c h wd (rng : Type) (seeded : rng) draw shuf size_max p fls dec M bytes cores np pr prefetch reads w,
  image_dataset imdecode cv_resize ip c h wd seeded draw shuf size_max p fls dec M ->
  graph_params cores np pr = (prefetch, reads) -> 1 <= cores -> w_reachable M (p_batch p) (p_last p) dec bytes prefetch reads w ->
  regular imdecode cv_resize ip c h wd fls -> Forall (Spec_image.good imdecode cv_resize ip c h wd) (concat (map snd fls)) ->
  In O_end (log (w_par w)) \/ length (concat (map snd fls)) < length (log (w_par w)) ->
  exists bs, image_batches ip p fls bs /\ Forall2 (full_example imdecode cv_resize ip c h wd fls) (delivered (log (w_par w))) bs.
Proof.
  intros imdecode cv_resize ip c h wd rng seeded draw shuf size_max p fls dec M bytes cores np pr prefetch reads w HD HG HC HR H1 H2 H3.
  destruct (image_whole _ _ _ _ _ _ _ _ _ _ _ _ _ _ _ _ _ _ _ _ w HD HG HC HR) as (src & src_end & R1 & R2). eapply img_good; eassumption.
Qed.
Print Assumptions C99_good_partial.

(* Without options that select or shuffle: the images of all files, each once, in order. *)
Theorem C99_all_images_partial : forall imdecode cv_resize ip c h wd (rng : Type) (seeded : rng) draw shuf size_max p fls dec M bytes cores np pr prefetch reads w,
  image_dataset imdecode cv_resize ip c h wd seeded draw shuf size_max p fls dec M ->
  graph_params cores np pr = (prefetch, reads) -> 1 <= cores -> w_reachable M (p_batch p) (p_last p) dec bytes prefetch reads w ->
  regular imdecode cv_resize ip c h wd fls -> Forall (Spec_image.good imdecode cv_resize ip c h wd) (concat (map snd fls)) ->
  p_skip p = 0 -> p_take p = None -> p_num_shards p <= 1 -> p_ratio p = None -> p_shuffle p = false ->
  p_last p <> last_drop -> p_last p <> last_drop_warn ->
  In O_end (log (w_par w)) \/ length (concat (map snd fls)) < length (log (w_par w)) ->
  exists outss, Forall2 (Spec_image.delivers imdecode cv_resize ip c h wd) (concat (map snd fls)) (concat outss) /\
    Forall2 (fun e outs => exists size, length outs <= size <= p_batch p /\ example_holds c h wd size e outs) (delivered (log (w_par w))) outss.
Proof.
  intros imdecode cv_resize ip c h wd rng seeded draw shuf size_max p fls dec M bytes cores np pr prefetch reads w HD HG HC HR. intros.
  destruct (image_whole _ _ _ _ _ _ _ _ _ _ _ _ _ _ _ _ _ _ _ _ w HD HG HC HR) as (src & src_end & R1 & R2). eapply img_all; eassumption.
Qed.
Print Assumptions C99_all_images_partial.

(* If bad images are padded. *)
Theorem C99_pad_partial : forall imdecode cv_resize ip c h wd (rng : Type) (seeded : rng) draw shuf size_max p fls dec M bytes cores np pr prefetch reads w,
  image_dataset imdecode cv_resize ip c h wd seeded draw shuf size_max p fls dec M ->
  graph_params cores np pr = (prefetch, reads) -> 1 <= cores -> w_reachable M (p_batch p) (p_last p) dec bytes prefetch reads w ->
  regular imdecode cv_resize ip c h wd fls -> p_bad ip = B_pad \/ p_bad ip = B_pad_warn ->
  In O_end (log (w_par w)) \/ length (concat (map snd fls)) < length (log (w_par w)) ->
  exists bs, image_batches ip p fls bs /\ Forall2 (padded_example imdecode cv_resize ip c h wd fls) (delivered (log (w_par w))) bs.
Proof.
  intros imdecode cv_resize ip c h wd rng seeded draw shuf size_max p fls dec M bytes cores np pr prefetch reads w HD HG HC HR H1 H2 H3.
  destruct (image_whole _ _ _ _ _ _ _ _ _ _ _ _ _ _ _ _ _ _ _ _ w HD HG HC HR) as (src & src_end & R1 & R2). eapply img_pad; eassumption.
Qed.
Print Assumptions C99_pad_partial.

(* If batches with bad images are skipped. *)
Theorem C99_skip_partial : forall imdecode cv_resize ip c h wd (rng : Type) (seeded : rng) draw shuf size_max p fls dec M bytes cores np pr prefetch reads w,
  image_dataset imdecode cv_resize ip c h wd seeded draw shuf size_max p fls dec M ->
  graph_params cores np pr = (prefetch, reads) -> 1 <= cores -> w_reachable M (p_batch p) (p_last p) dec bytes prefetch reads w ->
  regular imdecode cv_resize ip c h wd fls -> p_bad ip = B_skip \/ p_bad ip = B_skip_warn ->
  In O_end (log (w_par w)) \/ length (concat (map snd fls)) < length (log (w_par w)) ->
  exists bs cs, image_batches ip p fls bs /\ spared (bad_image imdecode cv_resize ip c h wd fls) bs cs /\
    Forall2 (full_example imdecode cv_resize ip c h wd fls) (delivered (log (w_par w))) cs.
Proof.
  intros imdecode cv_resize ip c h wd rng seeded draw shuf size_max p fls dec M bytes cores np pr prefetch reads w HD HG HC HR H1 H2 H3.
  destruct (image_whole _ _ _ _ _ _ _ _ _ _ _ _ _ _ _ _ _ _ _ _ w HD HG HC HR) as (src & src_end & R1 & R2). eapply img_skip; eassumption.
Qed.
Print Assumptions C99_skip_partial.

(* If bad images are errors and end of data has been reported. *)
Theorem C99_error_partial : forall imdecode cv_resize ip c h wd (rng : Type) (seeded : rng) draw shuf size_max p fls dec M bytes cores np pr prefetch reads w,
  image_dataset imdecode cv_resize ip c h wd seeded draw shuf size_max p fls dec M ->
  graph_params cores np pr = (prefetch, reads) -> 1 <= cores -> w_reachable M (p_batch p) (p_last p) dec bytes prefetch reads w ->
  regular imdecode cv_resize ip c h wd fls -> p_bad ip = B_error -> In O_end (log (w_par w)) ->
  exists bs, image_batches ip p fls bs /\ Forall2 (full_example imdecode cv_resize ip c h wd fls) (delivered (log (w_par w))) bs.
Proof.
  intros imdecode cv_resize ip c h wd rng seeded draw shuf size_max p fls dec M bytes cores np pr prefetch reads w HD HG HC HR H1 H2 H3.
  destruct (image_whole _ _ _ _ _ _ _ _ _ _ _ _ _ _ _ _ _ _ _ _ w HD HG HC HR) as (src & src_end & R1 & R2). eapply img_error; eassumption.
Qed.
Print Assumptions C99_error_partial.

(* Unless batches are skipped, end of data is reported only if every file of which an instance was selected could be read. *)
Theorem C99_unreadable : forall imdecode cv_resize ip c h wd (rng : Type) (seeded : rng) draw shuf size_max p fls dec M bytes cores np pr prefetch reads w,
  image_dataset imdecode cv_resize ip c h wd seeded draw shuf size_max p fls dec M ->
  graph_params cores np pr = (prefetch, reads) -> 1 <= cores -> w_reachable M (p_batch p) (p_last p) dec bytes prefetch reads w ->
  p_bad ip <> B_skip -> p_bad ip <> B_skip_warn -> In O_end (log (w_par w)) ->
  exists bs, image_batches ip p fls bs /\
    Forall (fun b => Forall (fun i => exists f l, In (f, l) fls /\ im_id f = i_store i /\ readable f) (ba_instances b)) bs.
Proof.
  intros imdecode cv_resize ip c h wd rng seeded draw shuf size_max p fls dec M bytes cores np pr prefetch reads w HD HG HC HR H1 H2 H3.
  destruct (image_whole _ _ _ _ _ _ _ _ _ _ _ _ _ _ _ _ _ _ _ _ w HD HG HC HR) as (src & src_end & R1 & R2). eapply img_unreadable; eassumption.
Qed.
Print Assumptions C99_unreadable.

(* The files of C92. *)
Import Proof_image Props_image Props_imgfile.
Lemma img_data b x err M :
  make_instance_reader 0 the_draw the_shuf 1000 the_params (map (fun fl => image_store (p_frame (crop_params b)) (fst fl)) (img_fls x err)) = Ok M ->
  image_dataset toy_decode toy_resize (crop_params b) 3 1 2 0 the_draw the_shuf 1000 the_params (img_fls x err) (img_dec (crop_params b) (img_fls x err)) M.
Proof.
  intro HM. destruct (img_case b x err) as (M' & H1 & H2 & H3 & H4 & H5 & _ & H7 & H8 & H9 & H10 & H11 & _ & H13).
  exact (conj H1 (conj H2 (conj H3 (conj H4 (conj H5 (conj HM (conj (conj H7 (conj H8 (conj H9 (conj H10 H11)))) H13))))))).
Qed.
Example C99_case :
  (exists M w, image_dataset toy_decode toy_resize (crop_params B_error) 3 1 2 0 the_draw the_shuf 1000 the_params (img_fls [1; 3; 20; 0]%N None)
      (img_dec (crop_params B_error) (img_fls [1; 3; 20; 0]%N None)) M /\
    w_reachable M 2 last_pad (img_dec (crop_params B_error) (img_fls [1; 3; 20; 0]%N None)) (fun _ => 1) 2 2 w /\
    log (w_par w) = [O_example (mk_example [2; 1; 2; 3] [17; 16; 15; 27; 26; 25; 22; 21; 20; 32; 31; 30] 0)%N;
             O_example (mk_example [2; 1; 2; 3] [62; 61; 60; 72; 71; 70; 0; 0; 0; 0; 0; 0] 1)%N; O_end]) /\
  regular toy_decode toy_resize (crop_params B_error) 3 1 2 (img_fls [1; 3; 20; 0]%N None) /\
  Forall (Spec_image.good toy_decode toy_resize (crop_params B_error) 3 1 2) (concat (map snd (img_fls [1; 3; 20; 0]%N None))) /\
  (exists M w, image_dataset toy_decode toy_resize (crop_params B_pad) 3 1 2 0 the_draw the_shuf 1000 the_params (img_fls [9]%N None)
      (img_dec (crop_params B_pad) (img_fls [9]%N None)) M /\
    w_reachable M 2 last_pad (img_dec (crop_params B_pad) (img_fls [9]%N None)) (fun _ => 1) 2 2 w /\
    log (w_par w) = [O_example (mk_example [2; 1; 2; 3] [17; 16; 15; 27; 26; 25; 0; 0; 0; 0; 0; 0] 1)%N;
             O_example (mk_example [2; 1; 2; 3] [62; 61; 60; 72; 71; 70; 0; 0; 0; 0; 0; 0] 1)%N; O_end]) /\
  (forall b, regular toy_decode toy_resize (crop_params b) 3 1 2 (img_fls [9]%N None)).
Proof.
  split; [|split; [apply img_regular; auto|split; [|split]]].
  - eexists. eexists. split; [apply img_data; reflexivity|]. split; [exists (W_schema true :: whole_run); vm_compute; reflexivity|reflexivity].
  - cbn [img_fls map snd concat app]. repeat (apply Forall_cons; [eapply img_toy_good; vm_compute; reflexivity|]). constructor.
  - eexists. eexists. split; [apply img_data; reflexivity|]. split; [exists (W_schema true :: whole_run); vm_compute; reflexivity|reflexivity].
  - intro b. apply img_regular. auto.
Qed.
End Image.
