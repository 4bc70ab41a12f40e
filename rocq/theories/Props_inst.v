(* Theorems about the instance readers and the batch reader.  reads_as, answers, groups, store_instances, range_of,
   shard_of, sample_of, displaced, batches_of, selected and ordered are defined in Spec_inst. *)
From Coq Require Import Permutation.
From Verif Require Import Common Model_rec Model_inst Spec_inst Proof_inst Proof_inst_filters Proof_inst_shuffle
  Proof_inst_core Proof_inst_props.

(* A dataset for the examples: a store with a whole and a split record, a file without records, an empty store and a store with
   one record. *)
Definition ex_bits (k : N) : list byte := [k; 1; 2]%N.
Definition ex_ds : list store :=
  [mk_store 7 (Ok (Some ([mk_rec (ex_bits 10) kComplete; mk_rec (ex_bits 20) kBegin; mk_rec (ex_bits 21) kMiddle;
                          mk_rec (ex_bits 22) kEnd], Ok tt)));
   mk_store 8 (Ok None);
   mk_store 9 (Ok (Some ([], Ok tt)));
   mk_store 5 (Ok (Some ([mk_rec (ex_bits 30) kComplete], Ok tt)))].
Definition ex_iss : list (list instance) :=
  [[mk_instance 7 0 (Some (ex_bits 10)); mk_instance 7 1 (Some (ex_bits 20 ++ ex_bits 21 ++ ex_bits 22))];
   [mk_instance 8 0 None]; []; [mk_instance 5 0 (Some (ex_bits 30))]].
Lemma ex_stores : Forall2 store_instances ex_ds ex_iss.
Proof.
  apply Forall2_cons; [right|apply Forall2_cons; [left|apply Forall2_cons; [right|apply Forall2_cons; [right|constructor]]]].
  - eexists; eexists. split; [reflexivity|]. split.
    + apply g_one; [reflexivity|]. apply (g_split _ [mk_rec (ex_bits 21) kMiddle] (mk_rec (ex_bits 22) kEnd) []);
        try reflexivity; repeat constructor.
    + reflexivity.
  - split; reflexivity.
  - eexists; eexists. split; [reflexivity|]. split; [constructor|reflexivity].
  - eexists; eexists. split; [reflexivity|]. split; [apply g_one; [reflexivity|constructor]|reflexivity].
Qed.
Lemma ex_reads : reads_as (core_reader ex_ds) (b_init (core_reader ex_ds)) (concat ex_iss) (Ok tt).
Proof. apply yields_iff. apply stores_ok. apply ex_stores. Qed.

(* ---------------- C15 ---------------- *)

(* Any reader object whose reads deliver xs and then end: every mixture of peek and read calls returns the
   next item of xs, and only reads remove it. *)
Theorem C15_peek_does_not_consume : forall (A : Type) (M : machine A) s xs ops,
  reads_as M s xs (Ok tt) -> Forall (fun o => o <> Reset) ops -> fst (run M s ops) = answers xs (Ok tt) ops.
Proof. exact @peek_ok. Qed.
Print Assumptions C15_peek_does_not_consume.
(* The same up to and including an error. *)
Theorem C15_peek_up_to_an_error : forall (A : Type) (M : machine A) s xs e ops,
  reads_as M s xs e -> Forall (fun o => o <> Reset) ops -> exists rest, fst (run M s ops) = answers xs e ops ++ rest.
Proof. exact @peek_err. Qed.
Print Assumptions C15_peek_up_to_an_error.
Example C15_case : reads_as (core_reader ex_ds) (b_init (core_reader ex_ds)) (concat ex_iss) (Ok tt) /\
  fst (run (core_reader ex_ds) (b_init (core_reader ex_ds)) [Peek; Peek; Read; Peek; Read; Read; Read; Peek; Read]) =
  answers (concat ex_iss) (Ok tt) [Peek; Peek; Read; Peek; Read; Read; Read; Peek; Read].
Proof. split; [apply ex_reads|reflexivity]. Qed.

(* ---------------- C16 ---------------- *)

(* If the range ends inside the sequence, an error further on is not reached. *)
Theorem C16_range : forall (A : Type) (M : machine A) skip take xs e,
  reads_as M (b_init M) xs e ->
  reads_as (ranged skip take M) (b_init (ranged skip take M)) (range_of skip take xs)
    (if range_full skip take xs then Ok tt else e).
Proof. intros A M skip take xs e H. apply yields_iff. apply ranged_ok. apply yields_iff. exact H. Qed.
Print Assumptions C16_range.
Example C16_case : length (concat ex_iss) = 4 /\ length (range_of 1 (Some 2) (concat ex_iss)) = 2.
Proof. split; reflexivity. Qed.

(* ---------------- C17 ---------------- *)

Theorem C17_shard : forall (A : Type) (M : machine A) index num xs e,
  index < num -> reads_as M (b_init M) xs e ->
  reads_as (sharded index num M) (b_init (sharded index num M)) (shard_of index num xs) e.
Proof. intros A M index num xs e Hi H. apply yields_iff. apply sharded_ok; [exact Hi|]. apply yields_iff. exact H. Qed.
Print Assumptions C17_shard.
Theorem C17_shards_partition : forall (A : Type) num (xs : list A),
  0 < num -> Permutation (concat (map (fun i => shard_of i num xs) (seq 0 num))) xs.
Proof. exact @shards_partition. Qed.
Print Assumptions C17_shards_partition.
Example C17_case : map (fun i => shard_of i 3 [10; 11; 12; 13; 14]) (seq 0 3) = [[10; 13]; [11; 14]; [12]].
Proof. reflexivity. Qed.
(* An index out of range is rejected when there is more than one shard ... *)
Theorem C17_invalid_index_rejected_partial : forall (rng : Type) (seeded : rng) draw shuf size_max p ds,
  1 < p_num_shards p -> p_num_shards p <= p_shard_index p ->
  make_instance_reader seeded draw shuf size_max p ds = Throw Invalid_argument.
Proof. exact @shard_params_rejected. Qed.
Print Assumptions C17_invalid_index_rejected_partial.
(* ... and accepted (and ignored) otherwise. *)
Definition ex_params (index num : nat) (ratio : option f32) (shuffle : bool) (window : nat) : rd_params :=
  mk_rd_params 0 None index num ratio shuffle window false 2 last_none.
Theorem C17_invalid_index_refuted : exists p M,
  p_num_shards p = 1 /\ p_shard_index p = 5 /\
  make_instance_reader tt (fun w g => (0, g)) (fun l g => (l, g)) 1000 p ex_ds = Ok M.
Proof. exists (ex_params 5 1 None false 0). eexists. repeat split. Qed.
Print Assumptions C17_invalid_index_refuted.

(* ---------------- C18 ---------------- *)

(* For every float32 ratio that is accepted, NaN excepted. *)
Theorem C18_sample : forall (A : Type) (M : machine A) r xs,
  float_ratio r -> ratio_rejected r = false -> reads_as M (b_init M) xs (Ok tt) ->
  exists keep ys, (forall n, n <= 100 -> num_keep r n = Ok (keep n)) /\ sample_of keep xs ys /\
    reads_as (sampled (num_keep r) M) (b_init (sampled (num_keep r) M)) ys (Ok tt).
Proof. exact @sample_ok. Qed.
Print Assumptions C18_sample.
(* The number kept of n is the integer part of r * n, or one more where the float product rounds up to the next
   integer; never more than n; at least 1 of a full block if r >= 0.01. *)
Theorem C18_share : forall m e n, (m < 2 ^ 24)%N -> (m < 2 ^ e)%N -> n <= 100 ->
  exists k, num_keep (f_fin false m e) n = Ok k /\ k <= n /\
    N.to_nat (m * N.of_nat n / 2 ^ e) <= k <= S (N.to_nat (m * N.of_nat n / 2 ^ e)).
Proof. exact share_ok. Qed.
Print Assumptions C18_share.
(* 0.01f: of 250 instances the first, the 101st; of the last 50 none *)
Example C18_case : ratio_rejected (f_fin false 10737418 30) = false /\ float_ratio (f_fin false 10737418 30) /\
  num_keep (f_fin false 10737418 30) 100 = Ok 1 /\ num_keep (f_fin false 10737418 30) 50 = Ok 0.
Proof. repeat split. Qed.
(* NaN is accepted, and its conversion to an integer is undefined. *)
Theorem C18_nan_refuted : exists p M,
  p_ratio p = Some f_nan /\
  make_instance_reader tt (fun w g => (0, g)) (fun l g => (l, g)) 1000 p ex_ds = Ok M /\
  outputs M (b_init M) 1 = [UB].
Proof. exists (ex_params 0 1 (Some f_nan) false 0). eexists. split; [reflexivity|]. split; [reflexivity|]. vm_compute. reflexivity. Qed.
Print Assumptions C18_nan_refuted.

(* ---------------- C19, C20 ---------------- *)

(* draw and shuf are any functions that return an index below the window and a permutation.  The reader is taken
   after construction (first part) and after reset from any state (second part); no outcome is UB, so no access is outside the
   buffer.  Window 0 stands for the largest size_t, which is assumed to exceed the length. *)
Theorem C19_shuffle_permutes : forall (A rng : Type) (M : machine A) (seeded : rng) draw shuf size_max window reshuffle xs,
  (forall l g, Permutation (fst (shuf l g)) l) -> (forall w g, 0 < w -> fst (draw w g) < w) ->
  length xs < size_max -> reads_as M (b_init M) xs (Ok tt) ->
  let S := shuffled seeded draw shuf size_max window reshuffle M in
  exists ys, reads_as S (b_init S) ys (Ok tt) /\ Permutation ys xs.
Proof. exact @shuffle_init. Qed.
Print Assumptions C19_shuffle_permutes.
Theorem C19_shuffle_permutes_every_epoch :
  forall (A rng : Type) (M : machine A) (seeded : rng) draw shuf size_max window reshuffle xs,
  (forall l g, Permutation (fst (shuf l g)) l) -> (forall w g, 0 < w -> fst (draw w g) < w) ->
  length xs < size_max -> (forall i, reads_as M (b_reset M i) xs (Ok tt)) ->
  let S := shuffled seeded draw shuf size_max window reshuffle M in
  forall s, exists ys, reads_as S (b_reset S s) ys (Ok tt) /\ Permutation ys xs /\
    (0 < window -> displaced window xs ys).
Proof. exact @shuffle_epoch. Qed.
Print Assumptions C19_shuffle_permutes_every_epoch.
Theorem C20_displacement : forall (A rng : Type) (M : machine A) (seeded : rng) draw shuf size_max window reshuffle xs,
  (forall l g, Permutation (fst (shuf l g)) l) -> (forall w g, 0 < w -> fst (draw w g) < w) ->
  0 < window -> 0 < size_max -> reads_as M (b_init M) xs (Ok tt) ->
  let S := shuffled seeded draw shuf size_max window reshuffle M in
  exists ys, reads_as S (b_init S) ys (Ok tt) /\ Permutation ys xs /\ displaced window xs ys.
Proof. exact @shuffle_displaced. Qed.
Print Assumptions C20_displacement.
Theorem C20_window_one : forall (A rng : Type) (M : machine A) (seeded : rng) draw shuf size_max reshuffle xs e,
  reads_as M (b_init M) xs e ->
  let S := shuffled seeded draw shuf size_max 1 reshuffle M in
  reads_as S (b_init S) xs e.
Proof. exact @shuffle_one. Qed.
Print Assumptions C20_window_one.
Theorem C20_same_order_each_epoch : forall (A rng : Type) (M : machine A) (seeded : rng) draw shuf size_max window s ops,
  (forall i, b_reset M i = b_init M) ->
  let S := shuffled seeded draw shuf size_max window false M in
  fst (run S s (Reset :: ops)) = fst (run S (b_init S) ops).
Proof. exact @shuffle_same_order. Qed.
Print Assumptions C20_same_order_each_epoch.
(* a deterministic "random" engine: the state counts the draws *)
Definition ex_draw (w g : nat) : nat * nat := (g mod w, S g).
Definition ex_shuf {A} (l : list A) (g : nat) : list A * nat := (rev l, S g).
Example C19_case : (forall (l : list nat) g, Permutation (fst (ex_shuf l g)) l) /\
  (forall w g, 0 < w -> fst (ex_draw w g) < w) /\
  outputs (shuffled 1 ex_draw ex_shuf 1000 3 false (list_machine [10; 11; 12; 13; 14; 15])) (b_init _) 7 =
  [Ok (Some 11); Ok (Some 13); Ok (Some 10); Ok (Some 12); Ok (Some 14); Ok (Some 15); Ok None] /\
  (forall i, b_reset (list_machine [10; 11; 12; 13; 14; 15]) i = b_init _).
Proof.
  split; [|split; [|split]].
  - intros l g. cbn. symmetry. apply Permutation_rev.
  - intros w g Hw. cbn -[Nat.modulo]. apply Nat.mod_upper_bound. lia.
  - vm_compute. reflexivity.
  - reflexivity.
Qed.

(* ---------------- C21 ---------------- *)

(* s is any state, in particular any state reached by any calls, including throwing ones. *)
Theorem C21_reset_replays : forall (rng : Type) (seeded : rng) draw shuf size_max p ds M s ops,
  make_instance_reader seeded draw shuf size_max p ds = Ok M -> p_shuffle p = false \/ p_reshuffle p = false ->
  fst (run M s (Reset :: ops)) = fst (run M (b_init M) ops).
Proof. exact @reset_replays. Qed.
Print Assumptions C21_reset_replays.
Theorem C21_reset_replays_batches : forall (rng : Type) (seeded : rng) draw shuf size_max p ds M B s ops,
  make_instance_reader seeded draw shuf size_max p ds = Ok M -> p_shuffle p = false \/ p_reshuffle p = false ->
  make_batch_reader (p_batch p) (p_last p) M = Ok B ->
  fst (run B s (Reset :: ops)) = fst (run B (b_init B) ops).
Proof. exact @batch_reset_replays. Qed.
Print Assumptions C21_reset_replays_batches.
Example C21_case : exists M B,
  make_instance_reader 1 ex_draw ex_shuf 1000 (ex_params 1 2 (Some (f_fin false 1 1)) true 2) ex_ds = Ok M /\
  make_batch_reader 2 last_none M = Ok B /\ outputs B (b_init B) 2 <> [Ok None; Ok None].
Proof. eexists; eexists. split; [reflexivity|]. split; [reflexivity|]. vm_compute. discriminate. Qed.

(* ---------------- C22 ---------------- *)

Theorem C22_batches_partial : forall (A : Type) (M : machine A) size last xs,
  0 < size -> last <> last_pad_warn -> reads_as M (b_init M) xs (Ok tt) ->
  exists bs, batches_of size last 0 xs bs /\
    reads_as (batch_reader size last M) (b_init (batch_reader size last M)) bs (Ok tt).
Proof. exact @batches_ok. Qed.
Print Assumptions C22_batches_partial.
(* What batches_of says: order, sizes, numbers, and what happens to an incomplete last batch. *)
Theorem C22_batches_meaning : forall (A : Type) size last k (xs : list A) bs,
  0 < size -> batches_of size last k xs bs ->
  (exists rest, concat (map ba_instances bs) ++ rest = xs /\ length rest < size /\
     (rest = [] \/ last = last_drop \/ last = last_drop_warn)) /\
  map ba_index bs = seq k (length bs) /\
  Forall (fun b => ba_instances b <> []) bs /\
  Forall (fun b => length (ba_instances b) = size /\ ba_size b = size) (removelast bs) /\
  (last = last_pad \/ last = last_pad_warn -> Forall (fun b => ba_size b = size) bs).
Proof. exact @batches_meaning. Qed.
Print Assumptions C22_batches_meaning.
(* pad_warn announces that it pads, and does not *)
Theorem C22_pad_warn_refuted : exists size (xs : list nat),
  0 < size /\ reads_as (list_machine xs) (b_init (list_machine xs)) xs (Ok tt) /\
  ~ exists bs, batches_of size last_pad_warn 0 xs bs /\
      reads_as (batch_reader size last_pad_warn (list_machine xs)) (b_init _) bs (Ok tt).
Proof. exact pad_warn. Qed.
Print Assumptions C22_pad_warn_refuted.
Theorem C22_zero_rejected : forall (A : Type) (M : machine A) last,
  make_batch_reader 0 last M = Throw Invalid_argument.
Proof. reflexivity. Qed.
Print Assumptions C22_zero_rejected.
Example C22_case : batches_of 2 last_pad 0 [10; 11; 12] [mk_batch 0 [10; 11] 2; mk_batch 1 [12] 2].
Proof.
  apply (ba_full 2 last_pad 0 [10; 11] [12]); [reflexivity|].
  apply ba_last; discriminate || reflexivity || (cbn; lia).
Qed.

(* ---------------- C23, C24 ---------------- *)

(* Stores with proper records (whole, or begin, middle ..., end) and stores without records: the instances come store
   by store, numbered from 0, each with the bits of its own records. *)
Theorem C24_stores_in_order_partial : forall ds iss,
  Forall2 store_instances ds iss ->
  reads_as (core_reader ds) (b_init (core_reader ds)) (concat iss) (Ok tt).
Proof. exact stores_read. Qed.
Print Assumptions C24_stores_in_order_partial.
(* A wrong sequence of parts: everything before it is delivered, then every call throws (until reset, C21). *)
Theorem C23_framing_errors_are_sticky : forall pre iss d post rs ps bad e,
  Forall2 store_instances pre iss -> sopen d = Ok (Some (rs ++ bad, e)) -> groups rs ps -> broken bad ->
  reads_as_sticky (core_reader (pre ++ d :: post)) (b_init (core_reader (pre ++ d :: post)))
    (concat iss ++ numbered (sid d) ps) (Throw Corrupt_record).
Proof. exact framing_error. Qed.
Print Assumptions C23_framing_errors_are_sticky.
(* An error of the record reader in the middle of a store. *)
Theorem C23_record_errors_are_sticky : forall pre iss d post rs ps e,
  Forall2 store_instances pre iss -> sopen d = Ok (Some (rs, e)) -> groups rs ps -> (forall u, e <> Ok u) ->
  reads_as_sticky (core_reader (pre ++ d :: post)) (b_init (core_reader (pre ++ d :: post)))
    (concat iss ++ numbered (sid d) ps) (cast_err e UB).
Proof. exact reader_error. Qed.
Print Assumptions C23_record_errors_are_sticky.
(* The sequences of kinds not covered by the two are those that end inside a split record. *)
Theorem C23_every_sequence_partial : forall rs, exists good bad ps,
  rs = good ++ bad /\ groups good ps /\ (bad = [] \/ broken bad \/ truncated bad).
Proof. exact every_sequence. Qed.
Print Assumptions C23_every_sequence_partial.
Example C23_case : groups [mk_rec (ex_bits 3) kComplete] [ex_bits 3] /\
  broken [mk_rec (ex_bits 1) kBegin; mk_rec (ex_bits 1) kMiddle; mk_rec (ex_bits 1) kComplete] /\
  broken [mk_rec (ex_bits 1) kEnd].
Proof.
  split; [apply g_one; [reflexivity|constructor]|]. split.
  - apply (br_inside _ [mk_rec (ex_bits 1) kMiddle]); try discriminate; repeat constructor.
  - apply br_start; discriminate.
Qed.
(* A split record cut off at the end of the dataset is not reported: the error handler uses a null store. *)
Theorem C23_truncated_at_the_end_refuted : forall pre iss d rs ps bad,
  Forall2 store_instances pre iss -> sopen d = Ok (Some (rs ++ bad, Ok tt)) -> groups rs ps -> truncated bad ->
  reads_as (core_reader (pre ++ [d])) (b_init (core_reader (pre ++ [d]))) (concat iss ++ numbered (sid d) ps) UB.
Proof. exact truncated_end. Qed.
Print Assumptions C23_truncated_at_the_end_refuted.
Example C23_truncated_case : truncated [mk_rec (ex_bits 1) kBegin; mk_rec (ex_bits 2) kMiddle].
Proof. eexists; eexists. split; [reflexivity|]. split; [reflexivity|repeat constructor]. Qed.
(* A split record left incomplete by one store is completed with parts of the next store, and the
   instance is attributed to the next store. *)
Theorem C24_split_record_crosses_stores_refuted : exists d1 d2 rs1 rs2,
  sopen d1 = Ok (Some (rs1, Ok tt)) /\ sopen d2 = Ok (Some (rs2, Ok tt)) /\ truncated rs1 /\ broken rs2 /\
  outputs (core_reader [d1; d2]) (b_init (core_reader [d1; d2])) 2 =
    [Ok (Some (mk_instance (sid d2) 0 (Some (concat (map payload (rs1 ++ rs2)))))); Ok None].
Proof. exact crosses_stores. Qed.
Print Assumptions C24_split_record_crosses_stores_refuted.
Example C24_case : Forall2 store_instances ex_ds ex_iss /\ length (concat ex_iss) = 4.
Proof. split; [apply ex_stores|reflexivity]. Qed.

(* ---------------- C61 ---------------- *)

(* Everything together, in every epoch and whatever happened before. *)
Theorem C61_whole_reader : forall (rng : Type) (seeded : rng) draw shuf size_max p ds iss M s,
  Forall2 store_instances ds iss -> make_instance_reader seeded draw shuf size_max p ds = Ok M ->
  (forall r, p_ratio p = Some r -> float_ratio r) ->
  (forall w g, 0 < w -> fst (draw w g) < w) -> (forall l g, Permutation (fst (shuf l g)) l) ->
  length (concat iss) < size_max ->
  exists ys zs, selected p (concat iss) ys /\ ordered p ys zs /\ reads_as M (b_reset M s) zs (Ok tt).
Proof. exact @reader_ok. Qed.
Print Assumptions C61_whole_reader.
Theorem C61_whole_new_reader : forall (rng : Type) (seeded : rng) draw shuf size_max p ds iss M,
  Forall2 store_instances ds iss -> make_instance_reader seeded draw shuf size_max p ds = Ok M ->
  (forall r, p_ratio p = Some r -> float_ratio r) ->
  (forall w g, 0 < w -> fst (draw w g) < w) -> (forall l g, Permutation (fst (shuf l g)) l) ->
  length (concat iss) < size_max ->
  exists ys zs, selected p (concat iss) ys /\ ordered p ys zs /\ reads_as M (b_init M) zs (Ok tt).
Proof. exact @reader_ok_init. Qed.
Print Assumptions C61_whole_new_reader.
Example C61_case : exists M, Forall2 store_instances ex_ds ex_iss /\ length (concat ex_iss) < 1000 /\
  make_instance_reader 1 ex_draw ex_shuf 1000
    (mk_rd_params 1 (Some 3) 0 2 (Some (f_fin false 3 2)) true 2 false 2 last_none) ex_ds = Ok M /\
  float_ratio (f_fin false 3 2).
Proof. eexists. split; [apply ex_stores|]. split; [cbn; lia|]. split; reflexivity. Qed.
