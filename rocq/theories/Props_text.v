(* Whole readers: C74 (any format), C75 (text files). *)
From Coq Require Import Permutation.
From Verif Require Import Common Model_rec Spec_rec Proof_rec_props Model_inst Spec_inst Proof_inst_props Model_par Spec_par Proof_par_props Model_text Spec_text Proof_text.

(* The examples: two files, "ab LF CR LF c" in memory and, behind a byte order mark, "d LF e LF" in chunks of 2 bytes; batches of two. *)
Definition f_1 : text_file := mk_text_file 7 [97; 98; 10; 13; 10; 99]%N true [] 64%N.
Definition f_2 : text_file := mk_text_file 8 [239; 187; 191; 100; 10; 101; 10]%N false [1; 1; 1] 2%N.
Definition the_files : list (text_file * list (list byte)) := [(f_1, [[97; 98]; []; [99]]%N); (f_2, [[100]; [101]]%N)].
Definition the_params : rd_params := mk_rd_params 0 None 0 1 None false 0 false 2 last_pad.
Definition the_draw (w g : nat) : nat * nat := (0, g).
Definition the_shuf (l : list instance) (g : nat) : list instance * nat := (l, g).
Definition the_reader : res (machine instance) :=
  make_instance_reader 0 the_draw the_shuf 1000 the_params (map (fun fl => text_store (fst fl)) the_files).
Definition ins (d : N) (i : nat) (b : list byte) : instance := mk_instance d i (Some b).
Definition the_batches : list (batch instance) :=
  [mk_batch 0 [ins 7 0 [97; 98]%N; ins 7 1 []] 2; mk_batch 1 [ins 7 2 [99]%N; ins 8 0 [100]%N] 2; mk_batch 2 [ins 8 1 [101]%N] 2].
Definition one (i : nat) : list action :=
  [T_source; T_limit; T_dstart i; T_dfinish i; T_forward; T_qstart; T_qfinish; T_notify; T_decr].
Definition two (i : nat) : list action :=
  [T_source; T_limit; T_source; T_limit; T_dstart i; T_dstart (S i); T_dfinish (S i); T_dfinish i;
   T_forward; T_forward; T_qstart; T_qfinish; T_notify; T_decr; T_qstart].
Definition the_run : list action :=
  [A_read] ++ two 0 ++ [C_wake; C_notify; T_qfinish; T_notify; T_decr; A_read; C_wake; C_notify] ++
  one 2 ++ [A_read; C_wake; C_notify; A_read; C_sleep; T_source; T_done; T_notify; C_wake; C_notify].

Lemma the_files_ok : Forall (fun fl => text_ok (fst fl) /\ has_lines (fst fl) (snd fl)) the_files.
Proof.
  constructor; [|constructor; [|constructor]]; cbn [fst snd].
  - split.
    + split; [reflexivity|]. left. reflexivity.
    + exists [], [([97; 98], eol_lf); ([], eol_crlf)]%N, [99%N]. split; [reflexivity|]. split; [left; reflexivity|].
      split; [intros (a & b & E); refine (no_bom_by_check _ _ a b E); reflexivity|]. repeat split; repeat constructor; cbn; intuition discriminate.
  - split.
    + split; [reflexivity|]. right. intros (a & b & E). do 8 (destruct a; try discriminate).
    + exists utf8_bom, [([100], eol_lf); ([101], eol_lf)]%N, []. split; [reflexivity|]. split; [right; reflexivity|].
      split; [intros (a & b & E); refine (no_bom_by_check _ _ a b E); reflexivity|]. repeat split; repeat constructor; cbn; intuition discriminate.
Qed.

(* ---------------- C74 ---------------- *)

(* A reader of any format: its stores hold instances, decode is what it makes of a batch, and the batches are read by
   the background thread from the chain of instance readers that the options ask for.  Under every interleaving and in
   every epoch, once end of data has been reported, the examples received are the decodings, in order, of consecutive
   batches of the selected instances. *)
Theorem C74_whole_reader : forall (rng : Type) (seeded : rng) draw shuf size_max p ds iss M src src_end
    (E : Type) (decode : batch instance -> dres E) bytes cores np pr prefetch reads s,
  Forall2 store_instances ds iss -> make_instance_reader seeded draw shuf size_max p ds = Ok M ->
  (forall r, p_ratio p = Some r -> float_ratio r) ->
  (forall w g, 0 < w -> fst (draw w g) < w) -> (forall l g, Permutation (fst (shuf l g)) l) ->
  length (concat iss) < size_max -> 0 < p_batch p -> fed_by M (p_batch p) (p_last p) src src_end ->
  graph_params cores np pr = (prefetch, reads) -> 1 <= cores ->
  reachable decode bytes src src_end prefetch reads s -> In O_end (log s) ->
  exists ys zs bs n, selected p (concat iss) ys /\ ordered p ys zs /\
    batches_of (p_batch p) (effective (p_last p)) 0 zs bs /\ bs = src (epoch s) /\
    Forall (decodable decode) bs /\
    log s = map O_example (sequential decode bs) ++ repeat O_end (S n) /\ delivered (log s) = sequential decode bs.
Proof. exact @pipeline. Qed.
Print Assumptions C74_whole_reader.

(* End of data is reported after as many calls as there are examples, if all batches can be decoded. *)
Theorem C74_end_is_reported : forall (B E : Type) (decode : B -> dres E) bytes src src_end cores np pr prefetch reads s,
  graph_params cores np pr = (prefetch, reads) -> 1 <= cores ->
  reachable decode bytes src src_end prefetch reads s ->
  Forall (decodable decode) (src (epoch s)) -> src_end (epoch s) = None ->
  length (sequential decode (src (epoch s))) < length (log s) -> In O_end (log s).
Proof. exact @enough_calls. Qed.
Print Assumptions C74_end_is_reported.

(* The instance readers do feed the pipeline. *)
Theorem C74_fed : forall (rng : Type) (seeded : rng) draw shuf size_max p ds iss M,
  Forall2 store_instances ds iss -> make_instance_reader seeded draw shuf size_max p ds = Ok M ->
  (forall r, p_ratio p = Some r -> float_ratio r) ->
  (forall w g, 0 < w -> fst (draw w g) < w) -> (forall l g, Permutation (fst (shuf l g)) l) ->
  length (concat iss) < size_max -> 0 < p_batch p ->
  exists src, fed_by M (p_batch p) (p_last p) src (fun _ => None).
Proof. exact @fed_exists. Qed.
Print Assumptions C74_fed.

(* A client that also calls peek_example: every call gets the first example that has not been read, and only read_example
   removes it.  (Calls that have not returned are excluded.) *)
Theorem C74_peek : forall (B E : Type) (decode : B -> dres E) bytes src src_end cores np pr prefetch reads s ops,
  graph_params cores np pr = (prefetch, reads) -> 1 <= cores ->
  reachable decode bytes src src_end prefetch reads s -> In O_end (log s) -> Forall (fun o => o <> Reset) ops ->
  let M := replay (log s) in ~ In UB (fst (run M (b_init M) ops)) ->
  fst (run M (b_init M) ops) = answers (sequential decode (src (epoch s))) (Ok tt) ops.
Proof. exact @peek_log. Qed.
Print Assumptions C74_peek.

(* The batches of the two files, and a run in which the batches are decoded in another order than they are read. *)
Example C74_case : exists M, the_reader = Ok M /\
  outputs (batch_reader 2 last_pad M) (None, (0, snd (run M (b_init M) [Peek]))) 4 = map (fun b => Ok (Some b)) the_batches ++ [Ok None] /\
  option_map log (exec (fun b => D_example (ba_index b)) (fun _ => 1) (fun _ => the_batches) (fun _ => None) 2 2 (init 0) the_run)
    = Some [O_example 0; O_example 1; O_example 2; O_end] /\
  graph_params 4 2 0 = (2, 2) /\
  fst (run (replay [O_example 0; O_example 1; O_end]) (b_init (replay [O_example 0; O_example 1; O_end])) [Peek; Peek; Read; Read; Peek]) =
    [Ok (Some 0); Ok (Some 0); Ok (Some 0); Ok (Some 1); Ok None].
Proof. eexists. split; [reflexivity|]. split; [vm_compute; reflexivity|]. split; [vm_compute; reflexivity|]. split; reflexivity. Qed.

(* ---------------- C75 ---------------- *)

(* Text files (whose text is read correctly, Spec_text.text_ok): once end of data has been reported, or more calls have
   returned than there are lines, the examples received hold exactly the selected lines of all files, in the order asked
   for, each once; only an incomplete last batch may be missing, if that was asked for.  All examples but the last are
   full, and no call of decode writes outside of its tensor. *)
Theorem C75_text_files_partial : forall (rng : Type) (seeded : rng) draw shuf size_max p fls M src src_end
    bytes cores np pr prefetch reads s,
  Forall (fun fl => text_ok (fst fl) /\ has_lines (fst fl) (snd fl)) fls ->
  make_instance_reader seeded draw shuf size_max p (map (fun fl => text_store (fst fl)) fls) = Ok M ->
  (forall r, p_ratio p = Some r -> float_ratio r) ->
  (forall w g, 0 < w -> fst (draw w g) < w) -> (forall l g, Permutation (fst (shuf l g)) l) ->
  length (text_instances fls) < size_max -> 0 < p_batch p -> fed_by M (p_batch p) (p_last p) src src_end ->
  graph_params cores np pr = (prefetch, reads) -> 1 <= cores ->
  reachable (fun b => dres_of (text_decode b)) bytes src src_end prefetch reads s ->
  In O_end (log s) \/ length (text_instances fls) < length (log s) ->
  exists ys zs rest, selected p (text_instances fls) ys /\ ordered p ys zs /\
    concat (map example_lines (delivered (log s))) ++ rest = map bits zs /\
    length rest < p_batch p /\ (rest = [] \/ p_last p = last_drop \/ p_last p = last_drop_warn) /\
    Forall (fun e => example_lines e <> []) (delivered (log s)) /\
    Forall (fun e => length (te_values e) = p_batch p /\ te_padding e = 0) (removelast (delivered (log s))) /\
    (p_last p = last_pad -> Forall (fun e => length (te_values e) = p_batch p) (delivered (log s))) /\
    Forall (fun b => text_decode b <> UB) (src (epoch s)).
Proof. exact @text_end. Qed.
Print Assumptions C75_text_files_partial.

(* Without options that select or shuffle: all lines of all files. *)
Theorem C75_all_lines_partial : forall (rng : Type) (seeded : rng) draw shuf size_max p fls M src src_end
    bytes cores np pr prefetch reads s,
  Forall (fun fl => text_ok (fst fl) /\ has_lines (fst fl) (snd fl)) fls ->
  make_instance_reader seeded draw shuf size_max p (map (fun fl => text_store (fst fl)) fls) = Ok M ->
  p_skip p = 0 -> p_take p = None -> p_num_shards p <= 1 -> p_ratio p = None -> p_shuffle p = false ->
  p_last p <> last_drop -> p_last p <> last_drop_warn ->
  (forall w g, 0 < w -> fst (draw w g) < w) -> (forall l g, Permutation (fst (shuf l g)) l) ->
  length (text_instances fls) < size_max -> 0 < p_batch p -> fed_by M (p_batch p) (p_last p) src src_end ->
  graph_params cores np pr = (prefetch, reads) -> 1 <= cores ->
  reachable (fun b => dres_of (text_decode b)) bytes src src_end prefetch reads s -> In O_end (log s) ->
  concat (map example_lines (delivered (log s))) = concat (map snd fls).
Proof. exact @text_all. Qed.
Print Assumptions C75_all_lines_partial.

Example C75_case : exists M, the_reader = Ok M /\
  Forall (fun fl => text_ok (fst fl) /\ has_lines (fst fl) (snd fl)) the_files /\
  outputs (batch_reader 2 last_pad M) (None, (0, b_init M)) 4 = map (fun b => Ok (Some b)) the_batches ++ [Ok None] /\
  option_map log (exec (fun b => dres_of (text_decode b)) (fun _ => 1) (fun _ => the_batches) (fun _ => None) 2 2 (init 0) the_run)
  = Some [O_example (mk_text_example [[97; 98]%N; []] 0); O_example (mk_text_example [[99]; [100]]%N 0);
          O_example (mk_text_example [[101]%N; []] 1); O_end].
Proof. eexists. split; [reflexivity|]. split; [exact the_files_ok|]. split; vm_compute; reflexivity. Qed.
