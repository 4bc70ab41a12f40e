(* Faults of the data stores: C78. *)
From Coq Require Import Permutation.
From Verif Require Import Common Model_rec Spec_rec Model_inst Spec_inst Model_par Spec_par Model_text Spec_text Model_pbfile Spec_pbfile
  Spec_fault Proof_fault.

(* ---------------- C78 ---------------- *)

(* The chain of instance readers, new or reset, over a dataset with a fault inside the range: what was selected before the fault comes
   out, except for the instances in the sampling block and in the shuffling window, and then the error. *)
Theorem C78_instances_partial : forall (rng : Type) (seeded : rng) draw shuf size_max,
  (forall w g, 0 < w -> fst (draw w g) < w) ->
  forall p ds xs x M s, faulty ds xs x -> make_instance_reader seeded draw shuf size_max p ds = Ok M ->
  ~ out_of_range p xs -> (forall r, p_ratio p = Some r -> float_ratio r /\ keeps_some r) ->
  length xs < size_max -> s = b_init M \/ (exists s', s = b_reset M s') ->
  exists ys zs, selected_before p xs ys /\ ordered_before p ys zs /\ reads_as M s zs (Throw x).
Proof.
  intros rng seeded draw shuf size_max Hd p ds xs x M s HF HM Hin Hk Hm Hs.
  destruct (reader_fault seeded draw shuf size_max Hd p ds xs x M s HF HM Hin Hk Hm Hs) as (ys & zs & H1 & H2 & H3).
  exists ys, zs. split; [exact H1|]. split; [exact H2|]. apply Proof_inst.yields_iff. exact H3.
Qed.
Print Assumptions C78_instances_partial.

(* A reader of any format, under every interleaving and in every epoch: end of data is never reported; the examples received are a
   beginning of the decodings of the full batches before the fault; and if all of these can be decoded, the only error reported
   is that of the store, at the latest when more calls have returned than there are such examples. *)
Theorem C78_fault_surfaces_partial : forall (rng : Type) (seeded : rng) draw shuf size_max,
  (forall w g, 0 < w -> fst (draw w g) < w) ->
  forall p ds xs x M src src_end (E : Type) (decode : batch instance -> dres E) bytes cores np pr prefetch reads s,
  faulty ds xs x -> make_instance_reader seeded draw shuf size_max p ds = Ok M ->
  ~ out_of_range p xs -> (forall r, p_ratio p = Some r -> float_ratio r /\ keeps_some r) ->
  length xs < size_max -> 0 < p_batch p -> fed_well M (p_batch p) (p_last p) src src_end ->
  graph_params cores np pr = (prefetch, reads) -> 1 <= cores -> reachable decode bytes src src_end prefetch reads s ->
  ~ In O_end (log s) /\
  exists ys zs bs, selected_before p xs ys /\ ordered_before p ys zs /\ batches_of (p_batch p) last_drop 0 zs bs /\
    (exists rest, delivered (log s) ++ rest = sequential decode bs) /\
    (Forall (decodable decode) bs ->
      (forall y, In (O_error y) (log s) -> y = x) /\
      (length (sequential decode bs) < length (log s) -> In (O_error x) (log s))).
Proof. intros. eapply fault_surfaces; eassumption. Qed.
Print Assumptions C78_fault_surfaces_partial.

(* Such readers exist for every such dataset. *)
Theorem C78_fed_partial : forall (rng : Type) (seeded : rng) draw shuf size_max,
  (forall w g, 0 < w -> fst (draw w g) < w) ->
  forall p ds xs x M, faulty ds xs x -> make_instance_reader seeded draw shuf size_max p ds = Ok M ->
  ~ out_of_range p xs -> (forall r, p_ratio p = Some r -> float_ratio r /\ keeps_some r) ->
  length xs < size_max -> 0 < p_batch p ->
  exists src, fed_well M (p_batch p) (p_last p) src (fun _ => Some x).
Proof. intros. eapply fed_fault_exists; eassumption. Qed.
Print Assumptions C78_fed_partial.

(* RecordIO files of any content: each is a proper file, or has a fault, or ends in the middle of a split record. *)
Theorem C78_recordio_any_content : forall f, (0 < tf_chunk f)%N -> Forall is_byte (tf_text f) ->
  (exists payloads, recordio_file f payloads) \/ (exists is x, failing (recordio_store f) is x) \/ cut_in_split (recordio_store f).
Proof. exact recordio_any. Qed.
Print Assumptions C78_recordio_any_content.

(* So if end of data is reported when all is read, every file was proper, unless one ended in the middle of a split record. *)
Theorem C78_recordio_end_partial : forall (rng : Type) (seeded : rng) draw shuf size_max,
  (forall w g, 0 < w -> fst (draw w g) < w) ->
  forall p fs M src src_end (E : Type) (decode : batch instance -> dres E) bytes cores np pr prefetch reads s,
  Forall (fun f => (0 < tf_chunk f)%N /\ Forall is_byte (tf_text f) /\ ~ cut_in_split (recordio_store f)) fs ->
  make_instance_reader seeded draw shuf size_max p (map recordio_store fs) = Ok M ->
  p_take p = None -> (forall r, p_ratio p = Some r -> float_ratio r /\ keeps_some r) ->
  (forall xs x, faulty (map recordio_store fs) xs x -> length xs < size_max) ->
  0 < p_batch p -> fed_well M (p_batch p) (p_last p) src src_end ->
  graph_params cores np pr = (prefetch, reads) -> 1 <= cores -> reachable decode bytes src src_end prefetch reads s ->
  In O_end (log s) -> exists pss, Forall2 recordio_file fs pss.
Proof.
  intros rng seeded draw shuf size_max Hd p fs M src src_end E decode bytes cores np pr prefetch reads s HF HM Ht Hk Hm Hb Hfed HG HC HR HE.
  destruct (recordio_dataset fs HF) as [H|(xs & x & Hx)]; [exact H|exfalso].
  assert (Hin : ~ out_of_range p xs). { unfold out_of_range, range_full. rewrite Ht. discriminate. }
  destruct (fault_surfaces seeded draw shuf size_max Hd p _ xs x M src src_end decode bytes cores np pr prefetch reads s
    Hx HM Hin Hk (Hm xs x Hx) Hb Hfed HG HC HR) as [Hne _]. contradiction.
Qed.
Print Assumptions C78_recordio_end_partial.

(* Two good records and a header with a wrong magic number, after a good file; batches of two, read in a window of two. *)
Definition rio (b : byte) : list byte := rio_encode1 kComplete [b; b; b; b]%N [].
Definition df_1 : text_file := mk_text_file 3 (rio 1 ++ rio 2)%N true [] 64%N.
Definition df_2 : text_file := mk_text_file 4 (rio 3 ++ rio 4 ++ [1; 2; 3; 4; 5; 6; 7; 8])%N false [3; 9] 5%N.
Definition df_stores : list store := map recordio_store [df_1; df_2; df_1].
Definition df_ins (d : N) (i : nat) (b : byte) : instance := mk_instance d i (Some [b; b; b; b]).
Definition df_xs : list instance := [df_ins 3 0 1; df_ins 3 1 2; df_ins 4 0 3; df_ins 4 1 4]%N.
Definition df_params (shuffle : bool) : rd_params := mk_rd_params 0 None 0 1 None shuffle 2 false 2 last_none.
Definition df_make (shuffle : bool) := make_instance_reader 0 (fun w g => (0, g)) (fun (l : list instance) g => (l, g)) 1000 (df_params shuffle) df_stores.

Lemma df_faulty : faulty df_stores df_xs Corrupt_header.
Proof.
  exists [recordio_store df_1], [numbered 3 [[1; 1; 1; 1]; [2; 2; 2; 2]]%N], (recordio_store df_2), (numbered 4 [[3; 3; 3; 3]; [4; 4; 4; 4]]%N),
    [recordio_store df_1].
  split; [reflexivity|]. split; [|split; [|reflexivity]].
  - constructor; [|constructor]. right. eexists. eexists. split; [vm_compute; reflexivity|]. split; [|reflexivity].
    constructor; [reflexivity|]. constructor; [reflexivity|]. constructor.
  - eapply (f_read (recordio_store df_2)); [vm_compute; reflexivity|].
    constructor; [reflexivity|]. constructor; [reflexivity|]. constructor.
Qed.

Example C78_case :
  (exists M, df_make false = Ok M /\
     outputs (batch_reader 2 last_none M) (None, (0, snd (run M (b_init M) [Peek]))) 3 =
       [Ok (Some (mk_batch 0 (firstn 2 df_xs) 2)); Ok (Some (mk_batch 1 (skipn 2 df_xs) 2)); Throw Corrupt_header]) /\
  (exists M, df_make true = Ok M /\ outputs M (b_init M) 4 =
       [Ok (Some (df_ins 3 0 1)); Ok (Some (df_ins 3 1 2)); Ok (Some (df_ins 4 0 3)); Throw Corrupt_header]%N) /\
  option_map log (exec (fun b => D_example (ba_index b)) (fun _ => 1)
    (fun _ => [mk_batch 0 (firstn 2 df_xs) 2]) (fun _ => Some Corrupt_header) 1 1 (init 0)
    [A_read; T_source; T_limit; T_dstart 0; T_dfinish 0; T_forward; T_qstart; T_qfinish; T_notify; T_decr; C_wake; C_notify;
     T_source; A_read; T_done; C_wake; A_read; C_wake])
  = Some [O_example 0; O_error Corrupt_header; O_error Corrupt_header].
Proof.
  split; [|split; [|vm_compute; reflexivity]]; (eexists; split; [reflexivity|vm_compute; reflexivity]).
Qed.

(* A sampling reader does not repeat the error: the call that looks for the schema fails, and the next ones return the instances that were
   read before the fault, the whole block instead of the sample. *)
Definition half : f32 := f_fin false 1 1.
Definition df_sampled := make_instance_reader 0 (fun w g => (0, g)) (fun (l : list instance) g => (l, g)) 1000
  (mk_rd_params 0 None 0 1 (Some half) false 1 false 2 last_none) df_stores.
Theorem C78_error_not_repeated_refuted : exists M, df_sampled = Ok M /\ faulty df_stores df_xs Corrupt_header /\ keeps_some half /\
  fst (run M (b_init M) [Peek; Peek; Read; Read; Read; Read]) =
    [Throw Corrupt_header; Ok (Some (df_ins 3 0 1)); Ok (Some (df_ins 3 0 1)); Ok (Some (df_ins 3 1 2)); Ok (Some (df_ins 4 0 3)); Ok (Some (df_ins 4 1 4))]%N.
Proof. eexists. split; [reflexivity|]. split; [apply df_faulty|]. split; [exists 49; reflexivity|]. vm_compute. reflexivity. Qed.
Print Assumptions C78_error_not_repeated_refuted.
