(* Streams over SageMaker pipe channels. *)
From Verif Require Import Common Model_strm Model_pipe Spec_pipe Proof_pipe.
Local Open Scope Z_scope.

(* C48. In every history in which no channel is asked for while a closed stream of it still exists, at most one stream
   holds a channel and its FIFOs are opened in sequence, also when opening fails or times out. *)
Theorem C48_one_reader_partial : forall stores ops p,
  sane_stores stores -> Forall sane_op ops -> tidy (pipe_start stores) ops ->
  let s := snd (p_run (pipe_start stores) ops) in
  (holders p s <= 1)%nat /\ (existing p s <= 1)%nat /\ in_sequence p 0 (pp_trace s).
Proof. exact C48_single_l. Qed.
Print Assumptions C48_one_reader_partial.

(* C48. If besides nobody asks for a certain FIFO, the FIFOs opened are number 0, 1, 2, ... *)
Theorem C48_numbers_partial : forall stores ops p,
  plain_stores stores -> Forall plain_op ops -> tidy (pipe_start stores) ops ->
  let l := opened_of p (pp_trace (snd (p_run (pipe_start stores) ops))) in
  l = map Z.of_nat (seq 0 (length l)).
Proof. exact C48_numbers_l. Qed.
Print Assumptions C48_numbers_partial.

(* C48. In such a history a channel can be had exactly when no stream holds it. *)
Theorem C48_available_partial : forall stores ops p e,
  sane_stores stores -> Forall sane_op ops -> tidy (pipe_start stores) ops -> names_file p ->
  let s := snd (p_run (pipe_start stores) ops) in
  (holders p s = O <-> exists h, fst (p_step s (P_acquire p e)) = Ok (Po_stream h)) /\
  (holders p s <> O -> fst (p_step s (P_acquire p e)) = Throw System_err).
Proof. intros stores ops p e A B C V. apply C48_available_l; try assumption. apply valid_names. exact V. Qed.
Print Assumptions C48_available_partial.

(* C48. Other paths are refused, and no channel is touched. *)
Theorem C48_path : forall s p e, ~ names_file p -> p_step s (P_acquire p e) = (Throw Invalid_argument, s).
Proof.
  intros s p e N. cbn [p_step]. unfold p_acquire. destruct (valid_path p) eqn:V; [|reflexivity]. apply valid_names in V. contradiction.
Qed.
Print Assumptions C48_path.

(* C48. Opening a FIFO succeeds if one of three attempts succeeds and data arrive in time; otherwise it is a system error and the
   stream does not come into being. *)
Theorem C48_open : forall s h st attempts ready,
  nth_error (pp_streams s) h = Some st -> ps_phase st = Ph_made -> ps_id st <> 2 ^ 63 - 1 ->
  let ok := (exists k, (k < 3)%nat /\ nth_error attempts k = Some true) /\ ready <> 0 /\ ready <> -1 in
  let '(r, s') := p_step s (P_fifo h attempts ready) in
  (ok -> r = Ok Po_done /\ exists st', nth_error (pp_streams s') h = Some st' /\ ps_path st' = ps_path st /\ ps_phase st' = Ph_ready) /\
  (~ ok -> r = Throw System_err /\ exists st', nth_error (pp_streams s') h = Some st' /\ ps_path st' = ps_path st /\ ps_phase st' = Ph_dead).
Proof. exact C48_open_l. Qed.
Print Assumptions C48_open.

Example C48_open_case :
  let s := snd (p_run (pipe_start []) [P_acquire [97]%N None]) in
  nth_error (pp_streams s) 0 = Some (mk_ps [97]%N 0 false Ph_made) /\
  fst (p_step s (P_fifo 0 [false; false; true] 1)) = Ok Po_done /\ fst (p_step s (P_fifo 0 [false; false; false; true] 1)) = Throw System_err /\
  names_file [47; 97]%N /\ ~ names_file [97; 47]%N.
Proof.
  cbv zeta. repeat split; try (vm_compute; reflexivity).
  - exists [47]%N, 97%N. repeat split; discriminate.
  - intro V. apply valid_names in V. vm_compute in V. discriminate.
Qed.

(* C48. A history in which streams are not closed but left to be destroyed is tidy. *)
Theorem C48_destroyed_only : forall stores ops, Forall never_closes ops -> tidy (pipe_start stores) ops.
Proof. exact C48_destroyed_only_l. Qed.
Print Assumptions C48_destroyed_only.

(* Two channels; the second stream of the first times out, one is refused, and a store asks for FIFO 7 once. *)
Example C48_case :
  let a := [97]%N in let b := [98]%N in
  let stores := [(b, Some 7%N)] in
  let ops := [P_acquire a None; P_fifo 0 [false; true] 1; P_acquire a None; P_store 0; P_fifo 1 [true] 1; P_close 0; P_destroy 0;
              P_acquire a None; P_fifo 2 [true] 0; P_destroy 1; P_store 0; P_fifo 3 [false; false; false; true] 1;
              P_acquire a None; P_store 0; P_fifo 5 [true] 1; P_fifo 4 [true] 1] in
  sane_stores stores /\ Forall sane_op ops /\ tidy (pipe_start stores) ops /\
  p_run (pipe_start stores) ops =
    ([Ok (Po_stream 0); Ok Po_done; Throw System_err; Ok (Po_stream 1); Ok Po_done; Ok Po_done; Ok Po_done;
      Ok (Po_stream 2); Throw System_err; Ok Po_done; Ok (Po_stream 3); Throw System_err;
      Ok (Po_stream 4); Ok (Po_stream 5); Ok Po_done; Ok Po_done], snd (p_run (pipe_start stores) ops)) /\
  pp_trace (snd (p_run (pipe_start stores) ops)) =
    [Ev_open a 0; Ev_start b 7; Ev_open b 7; Ev_open a 1; Ev_open b 8; Ev_open a 2]%Z.
Proof.
  cbv zeta. split; [repeat constructor|]. split; [repeat constructor|]. split; [|split; vm_compute; reflexivity].
  vm_compute. repeat (split; [intros p H; try discriminate H; injection H as <-; intros st K; repeat (destruct K as [ <- | K]; [vm_compute; congruence|]); contradiction|]).
  exact I.
Qed.

(* C48. A stream that is closed and later destroyed releases the channel twice, the second time from under the stream
   that holds it then: two streams hold the channel and a FIFO is opened twice. *)
Theorem C48_released_twice_refuted : exists ops p,
  Forall plain_op ops /\
  let s := snd (p_run (pipe_start []) ops) in
  holders p s = 2%nat /\ opened_of p (pp_trace s) = [0; 1; 1]%Z.
Proof.
  exists [P_acquire [97]%N None; P_fifo 0 [true] 1; P_close 0; P_acquire [97]%N None; P_fifo 1 [true] 1; P_destroy 0;
          P_acquire [97]%N None; P_fifo 2 [true] 1], [97]%N.
  split; [repeat constructor|]. vm_compute. auto.
Qed.
Print Assumptions C48_released_twice_refuted.

(* C48. After a failed attempt to open the FIFO of number 2^64 - 1 the channel cannot be had any more. *)
Theorem C48_lost_channel_refuted : exists ops p,
  Forall never_closes ops /\
  let s := snd (p_run (pipe_start []) ops) in
  existing p s = O /\ fst (p_step s (P_acquire p None)) = Throw System_err.
Proof.
  exists [P_acquire [97]%N (Some (2 ^ 64 - 1)%N); P_fifo 0 [] 1], [97]%N.
  split; [repeat constructor|]. vm_compute. auto.
Qed.
Print Assumptions C48_lost_channel_refuted.

(* C48. Whatever the system answers, the reads of a stream deliver the content of its FIFO in order and without loss or
   repetition, a read of at least one byte delivers nothing only at the end, and failed reads take nothing. *)
Theorem C48_read : forall content sched calls rs f',
  fifo_reads (mk_fifo content sched) calls = (rs, f') ->
  delivered rs ++ ff_rest f' = content /\
  Forall2 (fun c r => match r with Ok l => (length l <= fst c)%nat | Throw e => e = System_err | _ => False end) calls rs /\
  (forall k c, nth_error calls k = Some c -> fst c <> O -> nth_error rs k = Some (Ok []) -> delivered (firstn k rs) = content).
Proof. exact C48_read_l. Qed.
Print Assumptions C48_read.

(* C48. A read of at least one byte fails exactly if the system twice had no data and then waiting failed or there was none again. *)
Theorem C48_patience : forall content sched n w, (0 < n)%nat ->
  ((exists f', fifo_read (mk_fifo content sched) n w = (Throw System_err, f')) <->
   firstn 2 sched = [O; O] /\ (w = 0 \/ w = -1 \/ nth_error sched 2 = Some O)).
Proof. exact C48_waits_l. Qed.
Print Assumptions C48_patience.

Example C48_read_case :
  fifo_reads (mk_fifo [1; 2; 3; 4; 5]%N [0; 2; 0; 0; 0; 1; 0; 0; 0; 0; 9]%nat) [(3, 1%Z); (3, 1%Z); (0, 1%Z); (3, 1%Z); (9, 1%Z); (9, 0%Z); (9, 0%Z)]%nat =
    ([Ok [1; 2]%N; Throw System_err; Ok []; Ok [3]%N; Throw System_err; Ok [4; 5]%N; Ok []], mk_fifo [] []).
Proof. vm_compute. reflexivity. Qed.
