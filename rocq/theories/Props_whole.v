(* Whole readers, the batch reader and the pipeline together: C93 (what is delivered), C94 and C95 (epochs), C96 (several readers). *)
From Coq Require Import Permutation.
From Verif Require Import Common Model_rec Model_inst Spec_inst Proof_inst Proof_inst_props Model_par Spec_par Proof_par_props Model_text Spec_text Proof_text
  Spec_fault Proof_fault Model_whole Spec_whole Proof_whole Proof_wholegood Proof_repro Proof_epochs Props_text.
From Verif Require Props_fault.

(* The examples: the text files of C75. *)
Definition text_dres (b : batch instance) : dres text_example := dres_of (text_decode b).
Definition lines_dres (b : batch instance) : dres (list (list byte)) := D_example (map bits (ba_instances b)).
Definition outcome {E} {M : machine instance} (r : res (option (wst E M))) : option (nat * list (@out E)) :=
  match r with Ok (Some w) => Some (epoch (w_par w), log (w_par w)) | _ => None end.

(* ---------------- C93 ---------------- *)

(* In every run of a whole reader, the batches that the background thread reads are those that C74 assumes; so C25 to C30, C62, C63 and
   C74 to C77 hold of it. *)
Theorem C93_refines : forall (rng : Type) (seeded : rng) draw shuf size_max p ds iss M
    (E : Type) (decode : batch instance -> dres E) bytes cores np pr prefetch reads,
  Forall2 store_instances ds iss -> make_instance_reader seeded draw shuf size_max p ds = Ok M ->
  (forall r, p_ratio p = Some r -> float_ratio r) ->
  (forall w g, 0 < w -> fst (draw w g) < w) -> (forall l g, Permutation (fst (shuf l g)) l) ->
  length (concat iss) < size_max -> 0 < p_batch p -> graph_params cores np pr = (prefetch, reads) -> 1 <= cores ->
  forall w, w_reachable M (p_batch p) (p_last p) decode bytes prefetch reads w ->
  exists src src_end, fed_by M (p_batch p) (p_last p) src src_end /\ reachable decode bytes src src_end prefetch reads (w_par w).
Proof. exact @good_refines. Qed.
Print Assumptions C93_refines.

(* No sequence of calls and no interleaving leads to undefined behaviour of the instance readers. *)
Theorem C93_defined : forall (rng : Type) (seeded : rng) draw shuf size_max p ds iss M
    (E : Type) (decode : batch instance -> dres E) bytes cores np pr prefetch reads,
  Forall2 store_instances ds iss -> make_instance_reader seeded draw shuf size_max p ds = Ok M ->
  (forall r, p_ratio p = Some r -> float_ratio r) ->
  (forall w g, 0 < w -> fst (draw w g) < w) -> (forall l g, Permutation (fst (shuf l g)) l) ->
  length (concat iss) < size_max -> 0 < p_batch p -> graph_params cores np pr = (prefetch, reads) -> 1 <= cores ->
  forall l, exists o, wexec M (p_batch p) (p_last p) decode bytes prefetch reads (w_init M) l = Ok o.
Proof. exact @good_defined. Qed.
Print Assumptions C93_defined.

(* When end of data has been reported, the examples of the epoch are the decodings of the batches of the selected instances. *)
Theorem C93_delivers : forall (rng : Type) (seeded : rng) draw shuf size_max p ds iss M
    (E : Type) (decode : batch instance -> dres E) bytes cores np pr prefetch reads,
  Forall2 store_instances ds iss -> make_instance_reader seeded draw shuf size_max p ds = Ok M ->
  (forall r, p_ratio p = Some r -> float_ratio r) ->
  (forall w g, 0 < w -> fst (draw w g) < w) -> (forall l g, Permutation (fst (shuf l g)) l) ->
  length (concat iss) < size_max -> 0 < p_batch p -> graph_params cores np pr = (prefetch, reads) -> 1 <= cores ->
  forall w, w_reachable M (p_batch p) (p_last p) decode bytes prefetch reads w -> In O_end (log (w_par w)) ->
  exists ys zs bs n, selected p (concat iss) ys /\ ordered p ys zs /\ batches_of (p_batch p) (effective (p_last p)) 0 zs bs /\
    Forall (decodable decode) bs /\ log (w_par w) = map O_example (sequential decode bs) ++ repeat O_end (S n).
Proof.
  intros rng seeded draw shuf size_max p ds iss M E decode bytes cores np pr prefetch reads HF HM Hr Hd Hp Hm Hb HG HC w HR HE.
  destruct (good_refines seeded draw shuf size_max p ds iss M decode bytes cores np pr prefetch reads HF HM Hr Hd Hp Hm Hb HG HC w HR) as (src & src_end & Hf & Hre).
  destruct (pipeline seeded draw shuf size_max p ds iss M src src_end decode bytes cores np pr prefetch reads (w_par w)
    HF HM Hr Hd Hp Hm Hb Hf HG HC Hre HE) as (ys & zs & bs & n & H1 & H2 & H3 & _ & H5 & H6 & _).
  exists ys, zs, bs, n. auto.
Qed.
Print Assumptions C93_delivers.

(* End of data is reported when more calls have returned than there are instances, if all batches can be decoded. *)
Theorem C93_end_is_reported : forall (rng : Type) (seeded : rng) draw shuf size_max p ds iss M
    (E : Type) (decode : batch instance -> dres E) bytes cores np pr prefetch reads,
  Forall2 store_instances ds iss -> make_instance_reader seeded draw shuf size_max p ds = Ok M ->
  (forall r, p_ratio p = Some r -> float_ratio r) ->
  (forall w g, 0 < w -> fst (draw w g) < w) -> (forall l g, Permutation (fst (shuf l g)) l) ->
  length (concat iss) < size_max -> 0 < p_batch p -> graph_params cores np pr = (prefetch, reads) -> 1 <= cores ->
  (forall b, ba_instances b <> [] -> length (ba_instances b) <= ba_size b -> decodable decode b) ->
  forall w, w_reachable M (p_batch p) (p_last p) decode bytes prefetch reads w -> length (concat iss) < length (log (w_par w)) ->
  In O_end (log (w_par w)).
Proof.
  intros rng seeded draw shuf size_max p ds iss M E decode bytes cores np pr prefetch reads HF HM Hr Hd Hp Hm Hb HG HC HD w HR HL.
  destruct (good_refines seeded draw shuf size_max p ds iss M decode bytes cores np pr prefetch reads HF HM Hr Hd Hp Hm Hb HG HC w HR) as (src & src_end & Hf & Hre).
  destruct (fed_batches seeded draw shuf size_max p ds iss M src src_end HF HM Hr Hd Hp Hm Hb Hf (epoch (w_par w))) as (Hend & ys & zs & H1 & H2 & H3).
  pose proof (batches_sizes _ _ _ _ _ H3) as HS. destruct (batches_meaning _ _ _ _ _ Hb H3) as (_ & _ & HN & _).
  eapply enough_calls; eauto.
  - rewrite Forall_forall in *. intros b Hi. apply HD; [apply HN|apply HS]; exact Hi.
  - pose proof (sequential_len decode (src (epoch (w_par w)))) as L1. pose proof (batches_len _ _ _ _ _ Hb H3) as L2.
    assert (L3 : length ys <= length (concat iss)) by (exact (selected_len seeded draw shuf size_max p _ _ H1)).
    assert (L4 : length zs = length ys) by (unfold ordered in H2; destruct (p_shuffle p); [apply Permutation_length, H2|congruence]). lia.
Qed.
Print Assumptions C93_end_is_reported.

(* Every call of read_example returns, and so do stop and reset, whatever the threads do. *)
Theorem C93_read_returns : forall (rng : Type) (seeded : rng) draw shuf size_max p ds iss M
    (E : Type) (decode : batch instance -> dres E) bytes cores np pr prefetch reads,
  Forall2 store_instances ds iss -> make_instance_reader seeded draw shuf size_max p ds = Ok M ->
  (forall r, p_ratio p = Some r -> float_ratio r) ->
  (forall w g, 0 < w -> fst (draw w g) < w) -> (forall l g, Permutation (fst (shuf l g)) l) ->
  length (concat iss) < size_max -> 0 < p_batch p -> graph_params cores np pr = (prefetch, reads) -> 1 <= cores ->
  forall w, w_reachable M (p_batch p) (p_last p) decode bytes prefetch reads w ->
  pc (w_par w) = c_wait \/ pc (w_par w) = c_notify ->
  w_inevitable M (p_batch p) (p_last p) decode bytes prefetch reads (fun w' => pc (w_par w') = c_idle) w.
Proof. exact @good_read_returns. Qed.
Print Assumptions C93_read_returns.
Theorem C93_stop_returns : forall (rng : Type) (seeded : rng) draw shuf size_max p ds iss M
    (E : Type) (decode : batch instance -> dres E) bytes cores np pr prefetch reads,
  Forall2 store_instances ds iss -> make_instance_reader seeded draw shuf size_max p ds = Ok M ->
  (forall r, p_ratio p = Some r -> float_ratio r) ->
  (forall w g, 0 < w -> fst (draw w g) < w) -> (forall l g, Permutation (fst (shuf l g)) l) ->
  length (concat iss) < size_max -> 0 < p_batch p -> graph_params cores np pr = (prefetch, reads) -> 1 <= cores ->
  forall w, w_reachable M (p_batch p) (p_last p) decode bytes prefetch reads w ->
  pc (w_par w) = c_notify_stop \/ pc (w_par w) = c_join ->
  w_inevitable M (p_batch p) (p_last p) decode bytes prefetch reads (fun w' => pc (w_par w') = c_joined) w.
Proof. exact @good_stop_returns. Qed.
Print Assumptions C93_stop_returns.

(* A run over the text files: the schema, three examples, end of data. *)
Definition a_run : list waction := W_schema true :: map W_act the_run.
Example C93_case : exists M, the_reader = Ok M /\
  outcome (wexec M 2 last_pad text_dres (fun _ => 1) 2 2 (w_init M) a_run) =
    Some (0, [O_example (mk_text_example [[97; 98]%N; []] 0); O_example (mk_text_example [[99]; [100]]%N 0);
              O_example (mk_text_example [[101]%N; []] 1); O_end]) /\
  Forall2 store_instances (map (fun fl => text_store (fst fl)) the_files) (map (fun fl => numbered (tf_id (fst fl)) (snd fl)) the_files) /\
  graph_params 4 2 0 = (2, 2).
Proof. eexists. split; [reflexivity|]. split; [vm_compute; reflexivity|]. split; [apply text_stores, the_files_ok|reflexivity]. Qed.

(* A dataset with a fault: what the calls return as long as no look at the first instance has failed. *)
Theorem C93_fault_partial : forall (rng : Type) (seeded : rng) draw shuf size_max p ds xs x M
    (E : Type) (decode : batch instance -> dres E) bytes cores np pr prefetch reads,
  faulty ds xs x -> make_instance_reader seeded draw shuf size_max p ds = Ok M ->
  ~ out_of_range p xs -> (forall r, p_ratio p = Some r -> float_ratio r /\ keeps_some r) ->
  (forall w g, 0 < w -> fst (draw w g) < w) ->
  length xs < size_max -> 0 < p_batch p -> graph_params cores np pr = (prefetch, reads) -> 1 <= cores ->
  forall w, w_calm M (p_batch p) (p_last p) decode bytes prefetch reads w ->
  ~ In O_end (log (w_par w)) /\
  exists ys zs bs, selected_before p xs ys /\ ordered_before p ys zs /\ batches_of (p_batch p) last_drop 0 zs bs /\
    (exists rest, delivered (log (w_par w)) ++ rest = sequential decode bs) /\
    (Forall (decodable decode) bs ->
      (forall y, In (O_error y) (log (w_par w)) -> y = x) /\
      (length (sequential decode bs) < length (log (w_par w)) -> In (O_error x) (log (w_par w)))).
Proof.
  intros rng seeded draw shuf size_max p ds xs x M E decode bytes cores np pr prefetch reads HF HM Hin Hk Hd Hm Hb HG HC w HR.
  edestruct @fault_refines as (src & src_end & Hf & Hre); try eassumption. eapply fault_surfaces; eassumption.
Qed.
Print Assumptions C93_fault_partial.

(* And the first look: the error, or an instance; nothing is undefined, and calls return. *)
Theorem C93_fault_look : forall (rng : Type) (seeded : rng) draw shuf size_max p ds xs x M
    (E : Type) (decode : batch instance -> dres E) bytes cores np pr prefetch reads,
  faulty ds xs x -> make_instance_reader seeded draw shuf size_max p ds = Ok M ->
  ~ out_of_range p xs -> (forall r, p_ratio p = Some r -> float_ratio r /\ keeps_some r) ->
  (forall w g, 0 < w -> fst (draw w g) < w) ->
  length xs < size_max -> 0 < p_batch p -> graph_params cores np pr = (prefetch, reads) -> 1 <= cores ->
  forall w, w_calm M (p_batch p) (p_last p) decode bytes prefetch reads w ->
  (w_schema w = false -> fst (b_peek M (snd (w_reader w))) = Throw x \/ exists v, fst (b_peek M (snd (w_reader w))) = Ok (Some v)) /\
  (forall a, exists o, wstep M (p_batch p) (p_last p) decode bytes prefetch reads w a = Ok o) /\
  (pc (w_par w) = c_wait \/ pc (w_par w) = c_notify ->
   w_inevitable M (p_batch p) (p_last p) decode bytes prefetch reads (fun w' => pc (w_par w') = c_idle) w).
Proof.
  intros rng seeded draw shuf size_max p ds xs x M E decode bytes cores np pr prefetch reads HF HM Hin Hk Hd Hm Hb HG HC w HR.
  split; [intro Hs; eapply fault_looks; eassumption|]. split; [intro a; eapply fault_defined; eassumption|intro Hpc; eapply fault_read_returns; eassumption].
Qed.
Print Assumptions C93_fault_look.

(* The dataset of C78: one batch of two, one more, then the damaged header. *)
Definition f_run : list waction :=
  W_schema true :: map W_act ([A_read] ++ one 0 ++ [C_wake; C_notify] ++ one 1 ++ [A_read; C_wake; C_notify; T_source; A_read; T_done; C_wake]).
Example C93_fault_case : exists M, Props_fault.df_make false = Ok M /\
  outcome (wexec M 2 last_none lines_dres (fun _ => 1) 2 2 (w_init M) f_run) =
    Some (0, [O_example [[1; 1; 1; 1]; [2; 2; 2; 2]]%N; O_example [[3; 3; 3; 3]; [4; 4; 4; 4]]%N; O_error Corrupt_header]).
Proof. eexists. split; [reflexivity|]. vm_compute. reflexivity. Qed.

(* ---------------- C94 ---------------- *)

(* Without reshuffling: the examples are the same in every epoch, in every run, and for every number of threads, cores and prefetched
   examples, wherever the client resets the reader. *)
Theorem C94_every_epoch_the_same : forall (rng : Type) (seeded : rng) draw shuf size_max p ds iss M
    (E : Type) (decode : batch instance -> dres E) bytes,
  Forall2 store_instances ds iss -> make_instance_reader seeded draw shuf size_max p ds = Ok M ->
  (forall r, p_ratio p = Some r -> float_ratio r) ->
  (forall w g, 0 < w -> fst (draw w g) < w) -> (forall l g, Permutation (fst (shuf l g)) l) ->
  length (concat iss) < size_max -> 0 < p_batch p ->
  p_shuffle p = false \/ p_reshuffle p = false ->
  exists ys zs bs, selected p (concat iss) ys /\ ordered p ys zs /\ batches_of (p_batch p) (effective (p_last p)) 0 zs bs /\
    forall cores np pr prefetch reads w, graph_params cores np pr = (prefetch, reads) -> 1 <= cores ->
      w_reachable M (p_batch p) (p_last p) decode bytes prefetch reads w -> receives (sequential decode bs) (log (w_par w)).
Proof. exact @same_every_epoch. Qed.
Print Assumptions C94_every_epoch_the_same.

(* Five lines in a window of two; end of data, reset, and again with another number of threads: the engine is reseeded. *)
Definition sh_params (reshuffle : bool) (window : nat) : rd_params := mk_rd_params 0 None 0 1 None true window reshuffle 1 last_none.
Definition sh_draw (w g : nat) : nat * nat := (g mod w, S g).
Definition sh_shuf (l : list instance) (g : nat) : list instance * nat := (if Nat.even g then l else rev l, S g).
Definition sh_reader (reshuffle : bool) (window : nat) : res (machine instance) :=
  make_instance_reader 0 sh_draw sh_shuf 1000 (sh_params reshuffle window) (map (fun fl => text_store (fst fl)) the_files).
Definition one_more (i : nat) : list action := one i ++ [A_read; C_wake; C_notify].
Definition to_the_end : list action :=
  [A_read] ++ one 0 ++ [C_wake; C_notify] ++ one_more 1 ++ one_more 2 ++ one_more 3 ++ one_more 4 ++
  [A_read; C_sleep; T_source; T_done; T_notify; C_wake; C_notify].
Definition reset_at_end : list action := [A_stop; C_notify; C_join; A_reset].
Definition reset_early : list action := [A_stop; C_notify; T_done; T_notify; C_join; A_reset].
(* one example, [more] steps of the background threads, reset, and then everything *)
Definition early_run (more : list action) : list waction :=
  W_schema true :: map W_act ([A_read] ++ one 0 ++ [C_wake; C_notify] ++ more ++ reset_early ++ to_the_end).
Definition late_run : list waction := W_schema true :: map W_act (to_the_end ++ reset_at_end ++ to_the_end).
Definition results (window : nat) (reshuffle : bool) (threads : nat) (l : list waction) : option (nat * list (@out (list (list byte)))) :=
  match sh_reader reshuffle window with
  | Ok M => outcome (wexec M 1 last_none lines_dres (fun _ => 1) threads threads (w_init M) l)
  | _ => None
  end.

Definition in_order (ls : list (list byte)) : list (@out (list (list byte))) := map (fun l => O_example [l]) ls ++ [O_end].
Example C94_case :
  results 2 false 2 (W_schema true :: map W_act to_the_end) = Some (0, in_order [[97; 98]; [99]; []; [101]; [100]]%N) /\
  results 2 false 1 late_run = Some (1, in_order [[97; 98]; [99]; []; [101]; [100]]%N) /\
  results 2 false 2 (early_run [T_source]) = Some (1, in_order [[97; 98]; [99]; []; [101]; [100]]%N).
Proof. split; [|split]; vm_compute; reflexivity. Qed.

(* ---------------- C95 ---------------- *)

(* With reshuffling: the examples of epoch e are determined by the options and the seed, if the client has reset the reader only after end of
   data, or, when the window holds the whole dataset (as by default), after an example. *)
Theorem C95_reproducible_partial : forall (rng : Type) (seeded : rng) draw shuf size_max p ds iss
    (E : Type) (decode : batch instance -> dres E) bytes,
  Forall2 store_instances ds iss ->
  (forall r, p_ratio p = Some r -> float_ratio r) ->
  (forall w g, 0 < w -> fst (draw w g) < w) -> (forall l g, Permutation (fst (shuf l g)) l) ->
  length (concat iss) < size_max -> 0 < p_batch p ->
  p_shuffle p = true -> p_reshuffle p = true ->
  forall M e, make_instance_reader seeded draw shuf size_max p ds = Ok M ->
  exists ys zs bs, selected p (concat iss) ys /\ ordered p ys zs /\ batches_of (p_batch p) (effective (p_last p)) 0 zs bs /\
    forall cores np pr prefetch reads w, graph_params cores np pr = (prefetch, reads) -> 1 <= cores ->
      w_resets M (p_batch p) (p_last p) decode bytes prefetch reads
        (fun w => settled (p_window p) (length (concat iss)) (log (w_par w))) w ->
      epoch (w_par w) = e -> receives (sequential decode bs) (log (w_par w)).
Proof. exact @same_when_settled. Qed.
Print Assumptions C95_reproducible_partial.

Example C95_case :
  results 2 true 2 late_run = Some (1, in_order [[]; [97; 98]; [100]; [99]; [101]]%N) /\
  results 2 true 1 late_run = Some (1, in_order [[]; [97; 98]; [100]; [99]; [101]]%N) /\
  results 0 true 2 (early_run [T_source]) = results 0 true 1 late_run /\
  results 0 true 2 (early_run []) = results 0 true 1 late_run.
Proof. vm_compute. auto. Qed.

(* Otherwise not, even with a fixed seed and a single client: two runs with the same calls and the same results before the reset; in
   the second the background thread had read one batch more. *)
Theorem C95_reproducible_refuted :
  exists M l1 l2 w1 w2 w1' w2' more,
    sh_reader true 2 = Ok M /\
    wexec M 1 last_none lines_dres (fun _ => 1) 2 2 (w_init M) l1 = Ok (Some w1) /\
    wexec M 1 last_none lines_dres (fun _ => 1) 2 2 (w_init M) l2 = Ok (Some w2) /\
    client l1 = client l2 /\ log (w_par w1) = log (w_par w2) /\
    wexec M 1 last_none lines_dres (fun _ => 1) 2 2 w1 more = Ok (Some w1') /\
    wexec M 1 last_none lines_dres (fun _ => 1) 2 2 w2 more = Ok (Some w2') /\
    In O_end (log (w_par w1')) /\ In O_end (log (w_par w2')) /\ log (w_par w1') <> log (w_par w2').
Proof.
  destruct (sh_reader true 2) as [M| | |] eqn:EM; [|discriminate..].
  exists M, (W_schema true :: map W_act ([A_read] ++ one 0 ++ [C_wake; C_notify])),
    (W_schema true :: map W_act ([A_read] ++ one 0 ++ [C_wake; C_notify] ++ [T_source])).
  injection EM as <-. do 4 eexists. exists (map W_act (reset_early ++ to_the_end)).
  split; [reflexivity|]. split; [vm_compute; reflexivity|]. split; [vm_compute; reflexivity|]. split; [reflexivity|]. split; [reflexivity|].
  split; [vm_compute; reflexivity|]. split; [vm_compute; reflexivity|]. vm_compute. split; [auto 10|]. split; [auto 10|]. discriminate.
Qed.
Print Assumptions C95_reproducible_refuted.

(* ---------------- C96 ---------------- *)

(* Several readers of the same dataset, with the shard indexes 0 to num - 1 and the same range, each with its own seed, batch size, shuffling,
   threads and runs; no sampling, and the last batch not dropped.  When all have reported end of data, together they have delivered every
   selected instance exactly once. *)
Theorem C96_shards_cover : forall (E X : Type) (decode : batch instance -> dres E) (content : E -> list X) (item : instance -> X)
    (rng : Type) draw shuf size_max ds iss bytes skip take num (logs : nat -> list (@out E)),
  (forall b e, length (ba_instances b) <= ba_size b -> decode b = D_example e -> content e = map item (ba_instances b)) ->
  (forall b, length (ba_instances b) <= ba_size b -> decode b <> D_skip) ->
  Forall2 store_instances ds iss ->
  (forall w (g : rng), 0 < w -> fst (draw w g) < w) -> (forall l g, Permutation (fst (shuf l g)) l) ->
  length (concat iss) < size_max -> 0 < num ->
  (forall i, i < num -> exists seeded p M cores np pr prefetch reads w,
     make_instance_reader seeded draw shuf size_max p ds = Ok M /\
     p_shard_index p = i /\ p_num_shards p = num /\ p_skip p = skip /\ p_take p = take /\ p_ratio p = None /\ 0 < p_batch p /\
     p_last p <> last_drop /\ p_last p <> last_drop_warn /\
     graph_params cores np pr = (prefetch, reads) /\ 1 <= cores /\
     w_reachable M (p_batch p) (p_last p) decode bytes prefetch reads w /\ logs i = log (w_par w) /\ In O_end (logs i)) ->
  Permutation (concat (map (fun i => concat (map content (delivered (logs i)))) (seq 0 num))) (map item (range_of skip take (concat iss))).
Proof.
  intros E X decode content item rng draw shuf size_max ds iss bytes skip take num logs Hc Hns HF Hd Hp Hm Hn Hall.
  etransitivity; [apply concat_perm with (g := fun i => map item (shard_of i num (range_of skip take (concat iss))))|].
  - intros i Hi. apply in_seq in Hi. destruct (Hall i) as (seeded & p & M & cores & np & pr & prefetch & reads & w & HM & P1 & P2 & P3 & P4 & P5 & Hb & P6 & P7 & HG & HC & HR & El & HE); [lia|].
    rewrite El in *. eapply (shard_delivers decode content item Hc Hns seeded draw shuf size_max p ds iss M); eauto. lia.
  - rewrite <- (map_map (fun i => shard_of i num (range_of skip take (concat iss))) (map item)), <- concat_map.
    apply Permutation_map, shards_partition. exact Hn.
Qed.
Print Assumptions C96_shards_cover.

(* Text files: every line of the range exactly once. *)
Theorem C96_text_lines_partial : forall (rng : Type) draw shuf size_max fls bytes skip take num (logs : nat -> list (@out text_example)),
  Forall (fun fl => text_ok (fst fl) /\ has_lines (fst fl) (snd fl)) fls ->
  (forall w (g : rng), 0 < w -> fst (draw w g) < w) -> (forall l g, Permutation (fst (shuf l g)) l) ->
  length (text_instances fls) < size_max -> 0 < num ->
  (forall i, i < num -> exists seeded p M cores np pr prefetch reads w,
     make_instance_reader seeded draw shuf size_max p (map (fun fl => text_store (fst fl)) fls) = Ok M /\
     p_shard_index p = i /\ p_num_shards p = num /\ p_skip p = skip /\ p_take p = take /\ p_ratio p = None /\ 0 < p_batch p /\
     p_last p <> last_drop /\ p_last p <> last_drop_warn /\
     graph_params cores np pr = (prefetch, reads) /\ 1 <= cores /\
     w_reachable M (p_batch p) (p_last p) text_dres bytes prefetch reads w /\ logs i = log (w_par w) /\ In O_end (logs i)) ->
  Permutation (concat (map (fun i => concat (map example_lines (delivered (logs i)))) (seq 0 num))) (range_of skip take (concat (map snd fls))).
Proof.
  intros rng draw shuf size_max fls bytes skip take num logs HF Hd Hp Hm Hn Hall.
  assert (HB : forall l : list (text_file * list (list byte)), map bits (concat (map (fun fl => numbered (tf_id (fst fl)) (snd fl)) l)) = concat (map snd l)).
  { induction l as [|[f ls] l IH]; [reflexivity|]. cbn [map concat fst snd]. rewrite map_app, IH. f_equal. unfold numbered. rewrite map_map. cbn.
    apply combine_snd. }
  rewrite <- HB.
  assert (HR : forall l : list instance, range_of skip take (map bits l) = map bits (range_of skip take l)).
  { intro l. unfold range_of. destruct take; rewrite ?firstn_map, ?skipn_map; [rewrite <- firstn_map|]; rewrite <- ?skipn_map; reflexivity. }
  rewrite HR. eapply (C96_shards_cover text_example (list byte) text_dres example_lines bits); eauto.
  - intros b e Hl He. unfold text_dres in He. rewrite (text_decode_ok b Hl) in He. injection He as <-. apply text_example_lines.
  - intros b Hl. unfold text_dres. rewrite (text_decode_ok b Hl). discriminate.
  - apply text_stores. exact HF.
Qed.
Print Assumptions C96_text_lines_partial.

(* Two readers, one of which shuffles: three lines and two lines. *)
Definition s_params (i : nat) (shuffle : bool) : rd_params := mk_rd_params 0 None i 2 None shuffle 0 true 2 last_none.
Definition s_reader (i : nat) (shuffle : bool) : res (machine instance) :=
  make_instance_reader 1 sh_draw sh_shuf 1000 (s_params i shuffle) (map (fun fl => text_store (fst fl)) the_files).
Definition s_run (k : nat) : list waction :=
  W_schema true :: map W_act ([A_read] ++ one 0 ++ [C_wake; C_notify] ++ (if k =? 2 then one_more 1 else []) ++
    [A_read; C_sleep; T_source; T_done; T_notify; C_wake; C_notify]).
Definition s_result (i : nat) (shuffle : bool) (k : nat) : option (nat * list (@out text_example)) :=
  match s_reader i shuffle with
  | Ok M => outcome (wexec M 2 last_none text_dres (fun _ => 1) 2 2 (w_init M) (s_run k))
  | _ => None
  end.
Example C96_case :
  s_result 0 true 2 = Some (0, [O_example (mk_text_example [[97; 98]; [99]]%N 0); O_example (mk_text_example [[101]]%N 0); O_end]) /\
  s_result 1 false 1 = Some (0, [O_example (mk_text_example [[]; [100]]%N 0); O_end]).
Proof. vm_compute. auto. Qed.
