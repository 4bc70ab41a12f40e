(* CSV files read to the end: C76. *)
From Coq Require Import Permutation.
From Verif Require Import Common Spec_csvtok Proof_csvtok Model_rec Spec_rec Proof_rec_props Model_inst Spec_inst Proof_inst_props Model_par Spec_par
  Model_text Spec_text Proof_text Props_text Model_num Spec_num Model_csv Spec_csv Proof_csv Proof_csv_schema Proof_csv_props Props_csv
  Model_csvfile Spec_csvfile Proof_csvfile.
From Coq Require String Ascii.
Import String.StringSyntax.
Local Open Scope string_scope.
Local Open Scope list_scope.
Local Open Scope nat_scope.

(* In all theorems: any interleaving of the threads, any epoch, any options; the conditions on the files and the headers
   are in Spec_csvfile.csv_file and csv_reading. *)

(* The rows of a file are its lines that are neither comments nor blank (if these are to be skipped), however it is read. *)
Theorem C76_rows_partial : forall rp f rows, csv_file rp f rows -> csv_rows rp f = map Ok rows.
Proof. exact csv_rows_ok. Qed.
Print Assumptions C76_rows_partial.

(* If all rows are good: once end of data has been reported, or more calls have returned than there are rows, the examples
   hold the values of exactly the selected data rows of all files, each once. *)
Theorem C76_good_rows_partial : forall (rng : Type) (seeded : rng) draw shuf size_max p F atof atod is_inf qnan fzero cp rp fls cols
    dec M src src_end cores np pr prefetch reads bytes s,
  csv_reading seeded draw shuf size_max p F atof atod is_inf qnan fzero cp rp fls cols dec M src src_end ->
  graph_params cores np pr = (prefetch, reads) -> 1 <= cores ->
  reachable dec bytes src src_end prefetch reads s ->
  Forall (fun t => exists vs, good_row F atof atod is_inf qnan cp cols t vs) (concat (without_headers cp 0 (map snd fls))) ->
  In O_end (log s) \/ length (csv_instances cp fls) < length (log s) ->
  delivers p F atof atod is_inf qnan cp cols (csv_instances cp fls) (delivered (log s)).
Proof. intros. eapply good_files; eassumption. Qed.
Print Assumptions C76_good_rows_partial.

(* If bad rows are errors and end of data has been reported, then the rows of all batches were good, and the examples hold them. *)
Theorem C76_error_partial : forall (rng : Type) (seeded : rng) draw shuf size_max p F atof atod is_inf qnan fzero cp rp fls cols
    dec M src src_end cores np pr prefetch reads bytes s,
  csv_reading seeded draw shuf size_max p F atof atod is_inf qnan fzero cp rp fls cols dec M src src_end ->
  graph_params cores np pr = (prefetch, reads) -> 1 <= cores ->
  reachable dec bytes src src_end prefetch reads s ->
  p_lenient cp = true -> Forall (fun t => closed cp t /\ comparable cp t) (concat (without_headers cp 0 (map snd fls))) ->
  p_bad cp = B_error -> In O_end (log s) ->
  delivers p F atof atod is_inf qnan cp cols (csv_instances cp fls) (delivered (log s)).
Proof. intros. eapply error_files; eassumption. Qed.
Print Assumptions C76_error_partial.

(* If batches with bad rows are skipped: the examples are those of the other batches. *)
Theorem C76_skip_partial : forall (rng : Type) (seeded : rng) draw shuf size_max p F atof atod is_inf qnan fzero cp rp fls cols
    dec M src src_end cores np pr prefetch reads bytes s,
  csv_reading seeded draw shuf size_max p F atof atod is_inf qnan fzero cp rp fls cols dec M src src_end ->
  graph_params cores np pr = (prefetch, reads) -> 1 <= cores ->
  reachable dec bytes src src_end prefetch reads s ->
  p_lenient cp = true -> Forall (fun t => closed cp t /\ comparable cp t) (concat (without_headers cp 0 (map snd fls))) ->
  p_bad cp = B_skip \/ p_bad cp = B_skip_warn -> In O_end (log s) ->
  exists ys zs bs cs, Spec_inst.selected p (csv_instances cp fls) ys /\ ordered p ys zs /\
    batches_of (p_batch p) (effective (p_last p)) 0 zs bs /\
    spared (fun i => bad_row F atof atod is_inf qnan cp cols (Model_text.bits i)) bs cs /\
    Forall2 (fun e b => exists vss, Forall2 (good_row F atof atod is_inf qnan cp cols) (map Model_text.bits (ba_instances b)) vss /\
      holds F cols (fst e) vss /\ snd e = ba_size b - length vss) (delivered (log s)) cs.
Proof. intros. eapply skip_files; eassumption. Qed.
Print Assumptions C76_skip_partial.

(* If bad rows are padded: the examples hold the good rows of their batches, and the others are counted as padding. *)
Theorem C76_pad_partial : forall (rng : Type) (seeded : rng) draw shuf size_max p F atof atod is_inf qnan fzero cp rp fls cols
    dec M src src_end cores np pr prefetch reads bytes s,
  csv_reading seeded draw shuf size_max p F atof atod is_inf qnan fzero cp rp fls cols dec M src src_end ->
  graph_params cores np pr = (prefetch, reads) -> 1 <= cores ->
  reachable dec bytes src src_end prefetch reads s ->
  p_lenient cp = true -> Forall (fun t => closed cp t /\ comparable cp t) (concat (without_headers cp 0 (map snd fls))) ->
  p_bad cp = B_pad \/ p_bad cp = B_pad_warn ->
  In O_end (log s) \/ length (csv_instances cp fls) < length (log s) ->
  exists ys zs bs, Spec_inst.selected p (csv_instances cp fls) ys /\ ordered p ys zs /\
    batches_of (p_batch p) (effective (p_last p)) 0 zs bs /\
    Forall2 (fun e b => exists vss, Select F atof atod is_inf qnan cp cols (map Model_text.bits (ba_instances b)) vss /\
      holds F cols (fst e) vss /\ snd e = ba_size b - length vss) (delivered (log s)) bs.
Proof. intros. eapply pad_files; eassumption. Qed.
Print Assumptions C76_pad_partial.

(* ---------------- a case ---------------- *)

(* Two files with a header each; the second data row is c,y.  "a,b LF 1,x LF #c LF c,y LF" in chunks, byte order mark and "a,b CR LF 3,z" in chunks of one byte. *)
Definition the_rp : csv_rparams := mk_csv_rparams 44%N 34%N (Some 35%N) false true None.
Definition the_cp (bad : beh) : csv_params :=
  mk_params 44%N 34%N None treat_as_bad [] 10 bad false (Some 0) false false [] [] [] [] None [] [] true.
Definition csv_1 (c : byte) : text_file :=
  mk_text_file 7 (tx "a,b" ++ [LF] ++ tx "1,x" ++ [LF] ++ tx "#c" ++ [LF] ++ (c :: tx ",y") ++ [LF]) false [1; 2] 3%N.
Definition csv_2 : text_file := mk_text_file 8 (utf8_bom ++ tx "a,b" ++ [CR; LF] ++ tx "3,z") false [] 1%N.
Definition csv_fls (c : byte) : list (text_file * list str) :=
  [(csv_1 c, [tx "a,b"; tx "1,x"; c :: tx ",y"]); (csv_2, [tx "a,b"; tx "3,z"])].
Definition csv_batches (c : byte) : list (batch instance) :=
  [mk_batch 0 [ins 7 0 (tx "1,x"); ins 7 1 (c :: tx ",y")] 2; mk_batch 1 [ins 8 0 (tx "3,z")] 2].
Definition csv_out (c : byte) : list (list row) := [[Ok (tx "1,x"); Ok (c :: tx ",y")]; [Ok (tx "3,z")]].
Definition csv_dec (bad : beh) (b : batch instance) : dres (list (list (Model_num.val nat)) * nat) :=
  dres_of (finish_example nat (ba_size b) (decode_ser nat toy toy no_inf 0 (the_cp bad) [int_col; str_col]
    (map Model_text.bits (ba_instances b)) 0 (make_tensors nat 0 [int_col; str_col] (ba_size b)))).
Definition csv_run : list action :=
  [A_read] ++ two 0 ++ [C_wake; C_notify; T_qfinish; T_notify; T_decr; A_read; C_wake; C_notify] ++
  [A_read; C_sleep; T_source; T_done; T_notify; C_wake; C_notify].

Lemma csv_files_ok c : c = 50%N \/ c = 113%N -> Forall (fun fl => csv_file the_rp (fst fl) (snd fl)) (csv_fls c).
Proof.
  intro Hc. constructor; [|constructor; [|constructor]]; cbn [fst snd].
  - split; [reflexivity|]. split; [reflexivity|].
    split; [right; right; right; intros (a & b & E); destruct Hc; subst c; do 17 (destruct a; try discriminate)|].
    split; [discriminate|]. split; [split; discriminate|].
    exists [], [(tx "a,b", eol_lf); (tx "1,x", eol_lf); (tx "#c", eol_lf); (c :: tx ",y", eol_lf)], [].
    split; [reflexivity|]. split; [left; reflexivity|].
    split. { intros (a & b & E). destruct Hc; subst c; [exact (no_bom_by_check (tf_text (csv_1 50%N)) eq_refl a b E)|exact (no_bom_by_check (tf_text (csv_1 113%N)) eq_refl a b E)]. }
    split; [repeat split; cbn; intuition discriminate|]. split; [|destruct Hc; subst c; reflexivity].
    intros l Hl. rewrite andb_false_r.
    destruct Hc; subst c; destruct Hl as [[<-|[<-|[<-|[<-|[]]]]]| ->]; repeat constructor; cbn; intuition discriminate.
  - split; [reflexivity|]. split; [reflexivity|]. split; [right; left; reflexivity|]. split; [discriminate|]. split; [split; discriminate|].
    exists utf8_bom, [(tx "a,b", eol_crlf)], (tx "3,z"). split; [reflexivity|]. split; [right; reflexivity|].
    split; [intros (a & b & E); refine (no_bom_by_check _ _ a b E); reflexivity|]. split; [repeat split; cbn; intuition discriminate|]. split; [|reflexivity].
    intros l Hl. rewrite andb_false_r. destruct Hl as [[<-|[]]| ->]; repeat constructor; cbn; intuition discriminate.
Qed.

Lemma csv_case bad c : c = 50%N \/ c = 113%N ->
  exists M, csv_reading 0 the_draw the_shuf 1000 the_params nat toy toy no_inf 0 0 (the_cp bad) the_rp (csv_fls c) [int_col; str_col]
    (csv_dec bad) M (fun _ => csv_batches c) (fun _ => None).
Proof.
  intro Hc. pose proof (csv_files_ok c Hc) as HF.
  assert (HS : exists r, csv_session nat toy no_inf 0 (the_cp bad) (map (fun fl => csv_rows the_rp (fst fl)) (csv_fls c)) r 2 (csv_out c)).
  { eexists. eapply (Cs_open _ _ _ _ _ _ _ 1 [_]).
    - eapply (Cs_open _ _ _ _ _ _ _ 0 []); [apply Cs_new|reflexivity|]. destruct Hc; subst c; vm_compute; reflexivity.
    - reflexivity.
    - vm_compute. reflexivity. }
  destruct HS as (r & HS).
  eexists. split; [exact HF|]. split.
  { intros h Hh. injection Hh as <-. repeat constructor; (eexists _, _; split; [reflexivity|apply fields_tokenize; vm_compute; reflexivity]). }
  split. { exists r, (csv_out c). split; [exact HS|reflexivity]. }
  split; [discriminate|]. split; [intros w g Hw; exact Hw|]. split; [intros; apply Permutation_refl|].
  split; [apply Nat.ltb_lt; destruct Hc; subst c; vm_compute; reflexivity|]. split; [cbn; lia|]. split.
  - eapply (fed_plain 0 the_draw the_shuf 1000 the_params (csv_stores (csv_fls c) (csv_out c)) [_; _]);
      [|reflexivity|reflexivity|reflexivity|cbn; lia|reflexivity|reflexivity|intros w g Hw; exact Hw|intros; apply Permutation_refl| |cbn; lia|discriminate|].
    + exact (csv_stores_ok (csv_fls c) [[tx "1,x"; c :: tx ",y"]; [tx "3,z"]] eq_refl).
    + apply Nat.ltb_lt. reflexivity.
    + cbn [map combine concat app]. apply (ba_full 2 last_pad 0 [_; _] [_]); [reflexivity|].
      apply ba_last; [discriminate|cbn; lia|discriminate|discriminate|reflexivity].
  - intros ep b Hb. eexists. split; [|reflexivity]. unfold decode.
    replace (runs_serial (the_cp bad) [int_col; str_col] (map Model_text.bits (ba_instances b))) with true; [reflexivity|].
    destruct Hb as [<-|[<-|[]]]; destruct bad; reflexivity.
Qed.

(* All rows good, read to the end. *)
Example C76_case : exists M s,
  csv_reading 0 the_draw the_shuf 1000 the_params nat toy toy no_inf 0 0 (the_cp B_error) the_rp (csv_fls 50%N) [int_col; str_col]
    (csv_dec B_error) M (fun _ => csv_batches 50%N) (fun _ => None) /\
  reachable (csv_dec B_error) (fun _ => 1) (fun _ => csv_batches 50%N) (fun _ => None) 2 2 s /\
  log s = [O_example ([[iv 1; iv 2]; [sv "x"; sv "y"]], 0); O_example ([[iv 3; iv 0]; [sv "z"; sv ""]], 1); O_end] /\
  Forall (fun t => exists vs, good_row nat toy toy no_inf 0 (the_cp B_error) [int_col; str_col] t vs)
    (concat (without_headers (the_cp B_error) 0 (map snd (csv_fls 50%N)))).
Proof.
  destruct (csv_case B_error 50%N (or_introl eq_refl)) as (M & HM). exists M. eexists. split; [exact HM|].
  split; [exists csv_run; vm_compute; reflexivity|]. split; [reflexivity|].
  repeat constructor; eexists; good.
Qed.

(* A bad row, with skipping and with padding. *)
Example C76_case_bad :
  (exists M s, csv_reading 0 the_draw the_shuf 1000 the_params nat toy toy no_inf 0 0 (the_cp B_pad) the_rp (csv_fls 113%N) [int_col; str_col]
      (csv_dec B_pad) M (fun _ => csv_batches 113%N) (fun _ => None) /\
    reachable (csv_dec B_pad) (fun _ => 1) (fun _ => csv_batches 113%N) (fun _ => None) 2 2 s /\
    log s = [O_example ([[iv 1; iv 0]; [sv "x"; sv ""]], 1); O_example ([[iv 3; iv 0]; [sv "z"; sv ""]], 1); O_end]) /\
  (exists M, csv_reading 0 the_draw the_shuf 1000 the_params nat toy toy no_inf 0 0 (the_cp B_skip) the_rp (csv_fls 113%N) [int_col; str_col]
      (csv_dec B_skip) M (fun _ => csv_batches 113%N) (fun _ => None)) /\
  sequential (csv_dec B_skip) (csv_batches 113%N) = [([[iv 3; iv 0]; [sv "z"; sv ""]], 1)] /\
  Forall (fun t => closed (the_cp B_pad) t /\ comparable (the_cp B_pad) t) (concat (without_headers (the_cp B_pad) 0 (map snd (csv_fls 113%N)))).
Proof.
  split; [|split; [|split]].
  - destruct (csv_case B_pad 113%N (or_intror eq_refl)) as (M & HM). exists M. eexists. split; [exact HM|].
    split; [exists csv_run; vm_compute; reflexivity|]. reflexivity.
  - exact (csv_case B_skip 113%N (or_intror eq_refl)).
  - vm_compute. reflexivity.
  - repeat constructor; try (left; reflexivity); closed_row.
Qed.
