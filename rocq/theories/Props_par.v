(* Theorems about the parallel reader.  reachable, sequential, delivered, decodable, error_of, inevitable, internal,
   in_decoding, undelivered and total_bytes are defined in Spec_par.

   In all of them decode is any function, src and src_end are the batches and the end of each epoch, cores, np and pr are the
   number of processor cores and the two parameters given by the user. *)
From Verif Require Import Common Model_par Spec_par Proof_par Proof_par_props.

(* A dataset for the examples: batch 0 is skipped, batch 9 cannot be decoded. *)
Definition ex_decode (b : nat) : dres nat :=
  match b with 0 => D_skip | 9 => D_fail Invalid_instance | _ => D_example (b + 10) end.
Definition ex_size (b : nat) : nat := 2 * b.
Definition ex_src (bs : list nat) : nat -> list nat := fun _ => bs.
Definition ex_end : nat -> option exn := fun _ => None.
(* one batch through the whole pipeline, and one that is skipped *)
Definition ex_batch (i : nat) : list action :=
  [T_source; T_limit; T_dstart i; T_dfinish i; T_forward; T_qstart; T_qfinish; T_notify; T_decr].
Definition ex_skip (i : nat) : list action :=
  [T_source; T_limit; T_dstart i; T_dfinish i; T_forward; T_qstart; T_qfinish; T_decr].
(* two at a time, the second decoded first *)
Definition ex_pair (i : nat) : list action :=
  [T_source; T_limit; T_source; T_limit; T_dstart i; T_dstart (S i); T_dfinish (S i); T_dfinish i;
   T_forward; T_forward; T_qstart; T_qfinish; T_notify; T_decr; T_qstart; T_qfinish; T_decr].
Definition ex_run (p r : nat) (bs : list nat) (l : list action) :=
  exec ex_decode ex_size (ex_src bs) ex_end p r (init 0) l.

(* ---------------- C25 ---------------- *)

(* Under every interleaving, what the client has received since the last reset is a beginning of the sequential
   decoding. *)
Theorem C25_order_and_content : forall (B E : Type) (decode : B -> dres E) size src src_end cores np pr prefetch reads,
  graph_params cores np pr = (prefetch, reads) -> 1 <= cores ->
  forall s, reachable decode size src src_end prefetch reads s ->
  exists rest, delivered (log s) ++ rest = sequential decode (src (epoch s)).
Proof. exact @order_ok. Qed.
Print Assumptions C25_order_and_content.

Example C25_case : graph_params 4 2 0 = (2, 2) /\
  option_map (fun s => delivered (log s)) (ex_run 2 2 [1; 2; 0; 3] ([A_read] ++ ex_pair 0 ++ [C_wake; C_notify; A_read] ++ ex_pair 2 ++ [A_read; C_wake; C_notify]))
  = Some [11; 12; 13] /\ sequential ex_decode [1; 2; 0; 3] = [11; 12; 13].
Proof. repeat split. Qed.

(* ---------------- C26 ---------------- *)

(* When end of data has been reported, everything has been delivered, nothing failed, and only end of data follows. *)
Theorem C26_end_after_everything : forall (B E : Type) (decode : B -> dres E) size src src_end cores np pr prefetch reads,
  graph_params cores np pr = (prefetch, reads) -> 1 <= cores ->
  forall s, reachable decode size src src_end prefetch reads s -> In O_end (log s) ->
  (exists n, log s = map O_example (sequential decode (src (epoch s))) ++ repeat O_end (S n)) /\
  Forall (decodable decode) (src (epoch s)) /\ src_end (epoch s) = None.
Proof. intros. edestruct @end_ok as (? & ? & ? & _); eauto. Qed.
Print Assumptions C26_end_after_everything.

Example C26_case :
  option_map log (ex_run 2 1 [1; 0] ([A_read] ++ ex_batch 0 ++ [C_wake; C_notify; A_read; C_sleep] ++ ex_skip 1 ++ [T_source; T_done; T_notify; C_wake; C_notify; A_read; C_wake; C_notify]))
  = Some [O_example 11; O_end; O_end].
Proof. reflexivity. Qed.

(* ---------------- C27 ---------------- *)

(* The bound of the property is exceeded: two examples may be prefetched, one batch decoded at a time, and four are held. *)
Theorem C27_stated_bound_refuted : exists decode src s,
  graph_params 4 2 1 = (2, 1) /\ reachable (B := nat) (E := nat) decode ex_size src ex_end 2 1 s /\ undelivered s = 2 + 1 + 1.
Proof.
  exists ex_decode, (ex_src [1; 2; 3; 4; 5; 6]). eexists. split; [reflexivity|]. split.
  - exists ([A_read] ++ ex_batch 0 ++ ex_batch 1 ++ [C_wake; C_notify] ++ ex_batch 2 ++ ex_batch 3 ++ [T_source; T_limit]).
    vm_compute. reflexivity.
  - reflexivity.
Qed.
Print Assumptions C27_stated_bound_refuted.

(* The bound that does hold: both queues count. *)
Theorem C27_bound : forall (B E : Type) (decode : B -> dres E) size src src_end cores np pr prefetch reads,
  graph_params cores np pr = (prefetch, reads) -> 1 <= cores ->
  forall s, reachable decode size src src_end prefetch reads s ->
  in_decoding s <= reads /\ length (readq s) + length (fillq s) < 2 * prefetch /\ undelivered s < 2 * prefetch + reads.
Proof. exact @bounds_ok. Qed.
Print Assumptions C27_bound.

Example C27_case :
  option_map (fun s => (in_decoding s, undelivered s)) (ex_run 2 2 [1; 2; 0; 3] ([A_read; T_source; T_limit; T_source; T_limit]))
  = Some (2, 2).
Proof. reflexivity. Qed.

(* The parameters of the user reach the pipeline as documented: zero means the number of cores, and there are never more parallel reads
   than prefetched examples. *)
Theorem C27_parameters : forall cores np pr prefetch reads,
  graph_params cores np pr = (prefetch, reads) -> 1 <= cores ->
  prefetch = (if np =? 0 then cores else np) /\ 1 <= reads <= prefetch /\ (1 <= pr <= prefetch -> reads = pr).
Proof. exact graph_params_meaning. Qed.
Print Assumptions C27_parameters.

Example C27_parameters_case : graph_params 4 0 0 = (4, 4) /\ graph_params 4 3 8 = (3, 3) /\ graph_params 4 3 2 = (3, 2).
Proof. repeat split. Qed.

(* ---------------- C28 ---------------- *)

(* A call of read_example returns, whatever the threads do: no deadlock and no lost wake-up. *)
Theorem C28_read_returns : forall (B E : Type) (decode : B -> dres E) size src src_end cores np pr prefetch reads,
  graph_params cores np pr = (prefetch, reads) -> 1 <= cores ->
  let step := step decode size src src_end prefetch reads in
  forall s, reachable decode size src src_end prefetch reads s -> pc s = c_wait \/ pc s = c_notify ->
  inevitable step (fun s' => pc s' = c_idle) s.
Proof. exact @read_returns. Qed.
Print Assumptions C28_read_returns.

(* In one epoch the threads do a number of steps bounded by the number of batches and of calls. *)
Theorem C28_finitely_many_steps : forall (B E : Type) (decode : B -> dres E) size src src_end prefetch reads ep l s,
  ~ In A_reset l -> exec decode size src src_end prefetch reads (init ep) l = Some s ->
  internal_steps l <= 11 * length (src ep) + 5 * calls l + 4.
Proof. intros *. apply (@epoch_steps) with (cores := 1). lia. Qed.
Print Assumptions C28_finitely_many_steps.

(* The client's thread and the queue node's body both sleep and are woken. *)
Example C28_case :
  option_map (fun s => (pc s, c_sleep s)) (ex_run 1 1 [1; 2] [A_read; C_sleep; T_source; T_limit]) = Some (c_wait, true) /\
  option_map (fun s => (pc s, q_sleep s, log s))
    (ex_run 1 1 [1; 2] ([A_read; C_sleep] ++ ex_batch 0 ++
       [T_source; T_limit; T_dstart 1; T_dfinish 1; T_forward; T_qstart; T_qsleep; C_wake]))
  = Some (c_notify, true, [O_example 11]) /\
  option_map (fun s => (pc s, q_sleep s, fillq s))
    (ex_run 1 1 [1; 2] ([A_read; C_sleep] ++ ex_batch 0 ++
       [T_source; T_limit; T_dstart 1; T_dfinish 1; T_forward; T_qstart; T_qsleep; C_wake; C_notify; T_qfinish]))
  = Some (c_idle, false, [12]).
Proof. repeat split. Qed.

(* ---------------- C29 ---------------- *)

(* After an error only that error is reported, what was delivered before is a beginning of the sequential decoding,
   and the error comes from the reading or the decoding of a batch. *)
Theorem C29_errors_stick : forall (B E : Type) (decode : B -> dres E) size src src_end cores np pr prefetch reads,
  graph_params cores np pr = (prefetch, reads) -> 1 <= cores ->
  forall s x, reachable decode size src src_end prefetch reads s -> In (O_error x) (log s) ->
  (exists ds n rest, log s = map O_example ds ++ repeat (O_error x) (S n) /\ ds ++ rest = sequential decode (src (epoch s))) /\
  error_of decode src src_end (epoch s) x.
Proof. exact @error_ok. Qed.
Print Assumptions C29_errors_stick.

(* Errors are not swallowed: if a batch cannot be read or decoded, end of data is never reported. *)
Theorem C29_errors_surface : forall (B E : Type) (decode : B -> dres E) size src src_end cores np pr prefetch reads,
  graph_params cores np pr = (prefetch, reads) -> 1 <= cores ->
  forall s x, reachable decode size src src_end prefetch reads s -> error_of decode src src_end (epoch s) x ->
  ~ In O_end (log s).
Proof. exact @error_no_end. Qed.
Print Assumptions C29_errors_surface.

Example C29_case :
  option_map log (ex_run 1 1 [1; 9] ([A_read] ++ ex_batch 0 ++
     [C_wake; C_notify; T_source; T_limit; T_dstart 1; T_dfinish 1; T_done; A_read; C_wake; A_read; C_wake]))
  = Some [O_example 11; O_error Invalid_instance; O_error Invalid_instance].
Proof. reflexivity. Qed.

(* The last sentence of the property fails: the first batch was decoded and waits in the queue, the second fails, and the
   client gets the error and never the example. *)
Theorem C29_decoded_examples_delivered_refuted : exists decode src s,
  reachable (B := nat) (E := nat) decode ex_size src ex_end 1 1 s /\
  fillq s = [11] /\ sequential decode (src (epoch s)) = [11] /\ log s = [O_error Invalid_instance].
Proof.
  exists ex_decode, (ex_src [1; 9]). eexists. split.
  - exists ([A_read] ++ ex_batch 0 ++ [T_source; T_limit; T_dstart 1; T_dfinish 1; T_done; C_wake]). vm_compute. reflexivity.
  - repeat split.
Qed.
Print Assumptions C29_decoded_examples_delivered_refuted.

(* ---------------- C30 ---------------- *)

(* Between two calls the reader can always be stopped, and stopping ends whatever the threads do. *)
Theorem C30_stop_returns : forall (B E : Type) (decode : B -> dres E) size src src_end cores np pr prefetch reads,
  graph_params cores np pr = (prefetch, reads) -> 1 <= cores ->
  let step := step decode size src src_end prefetch reads in
  forall s, reachable decode size src src_end prefetch reads s ->
  (pc s = c_idle -> step s A_stop <> None) /\
  (pc s = c_notify_stop \/ pc s = c_join -> inevitable step (fun s' => pc s' = c_joined) s).
Proof. intros. split; [apply @stop_possible|eapply @stop_returns; eauto]. Qed.
Print Assumptions C30_stop_returns.

(* After stop no thread of the pipeline can do anything, and reset gives a reader in the state of a new one, in the next epoch. *)
Theorem C30_reset_is_a_new_reader : forall (B E : Type) (decode : B -> dres E) size src src_end cores np pr prefetch reads,
  graph_params cores np pr = (prefetch, reads) -> 1 <= cores ->
  let step := step decode size src src_end prefetch reads in
  forall s, reachable decode size src src_end prefetch reads s -> pc s = c_joined ->
  (forall a, internal a = true -> step s a = None) /\ step s A_reset = Some (init (S (epoch s))).
Proof. exact @stopped_is_quiet. Qed.
Print Assumptions C30_reset_is_a_new_reader.

(* stop while a body is decoding and examples are queued, then a complete second epoch *)
Example C30_case :
  option_map (fun s => (epoch s, log s))
    (ex_run 2 1 [1; 2] ([A_read] ++ ex_batch 0 ++ [T_source; T_limit; T_dstart 1; C_wake; C_notify; A_stop; C_notify; T_dfinish 1; T_done; T_notify; C_join; A_reset; A_read]
       ++ ex_batch 0 ++ ex_batch 1 ++ [C_wake; C_notify; A_read]))
  = Some (1, [O_example 11; O_example 12]).
Proof. reflexivity. Qed.

(* ---------------- C62 ---------------- *)

(* The client is about to call read_example, which looks at the run state without the lock as the read queue is empty, and at the same
   time the background thread is about to write it. *)
Theorem C62_unlocked_run_state_refuted : exists decode src s s1 s2,
  let step := step (B := nat) (E := nat) decode ex_size src ex_end 1 1 in
  reachable decode ex_size src ex_end 1 1 s /\
  pc s = c_idle /\ readq s = [] /\ step s A_read = Some s1 /\
  step s T_done = Some s2 /\ rstate s2 <> rstate s.
Proof.
  exists ex_decode, (ex_src [1]). eexists. eexists. eexists. cbv zeta. split.
  - exists ([A_read] ++ ex_batch 0 ++ [C_wake; C_notify; T_source]). vm_compute. reflexivity.
  - repeat split; try (vm_compute; reflexivity). discriminate.
Qed.
Print Assumptions C62_unlocked_run_state_refuted.

(* ---------------- C63 ---------------- *)

(* At the end of the data the number of bytes read is the size of all batches that became examples. *)
Theorem C63_bytes_at_the_end : forall (B E : Type) (decode : B -> dres E) size src src_end cores np pr prefetch reads,
  graph_params cores np pr = (prefetch, reads) -> 1 <= cores ->
  forall s, reachable decode size src src_end prefetch reads s -> In O_end (log s) ->
  bytes s = total_bytes decode size (src (epoch s)).
Proof. intros. edestruct @end_ok as (_ & _ & _ & ?); eauto. Qed.
Print Assumptions C63_bytes_at_the_end.

(* The batch that is skipped does not count. *)
Example C63_case :
  option_map (fun s => (log s, bytes s))
    (ex_run 2 1 [1; 0; 5] ([A_read] ++ ex_batch 0 ++ ex_skip 1 ++ ex_batch 2 ++ [T_source; T_done; C_wake; C_notify; A_read; A_read; C_wake; C_notify]))
  = Some ([O_example 11; O_example 15; O_end], 12).
Proof. reflexivity. Qed.
