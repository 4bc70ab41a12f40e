(* Using a reader from Python while background threads call Python. *)
From Verif Require Import Common Model_gil Spec_gil Proof_gil.

(* ---------------- C86 ---------------- *)

(* C86. Whatever the schedule, no thread uses Python or a log handler without being entitled to, as long as streams are
   implemented in C++ and the log handler is changed only while the reader is idle. *)
Theorem C86_safe_partial : forall cap calls epochs schedule,
  no_py_stream calls epochs -> handlers_when_idle false calls ->
  exists s, run cap schedule (initial calls epochs) = Some s /\ forall t, step cap t s <> Crash.
Proof.
  intros cap calls epochs schedule N H.
  destruct (inv_run cap schedule _ (inv_initial _ _ N H)) as (s & R & I). exists s. split; auto.
  intros t E. pose proof (inv_step cap t s I) as P. rewrite E in P. exact P.
Qed.
Print Assumptions C86_safe_partial.

(* C86. A program that reads, and neither resets nor deletes the reader, always comes to its end, although the background
   threads log to Python and open data stores implemented in Python. *)
Theorem C86_reads_finish : forall cap calls epochs,
  (0 < cap)%nat -> no_py_stream calls epochs -> handlers_when_idle false calls ->
  ~ In Call_reset calls -> ~ In Call_delete calls -> always_finishes cap (initial calls epochs).
Proof. exact finishes_without_reset. Qed.
Print Assumptions C86_reads_finish.

(* C86. A program that resets or deletes the reader always comes to its end if the background threads never call Python. *)
Theorem C86_reset_finishes_partial : forall cap calls epochs,
  (0 < cap)%nat -> no_py_stream calls epochs -> handlers_when_idle false calls -> silent calls epochs ->
  always_finishes cap (initial calls epochs).
Proof. exact finishes_silent. Qed.
Print Assumptions C86_reset_finishes_partial.

(* Two workers: one opens Python data stores and logs, the other logs and produces examples. *)
Definition C86_epoch : list (list wop) := [[W_store; W_compute; W_log]; [W_put; W_log; W_put; W_compute]].
Definition C86_calls : list call :=
  [Call_set_handler; Call_schema 1; Call_read 1; Call_python; Call_stream; Call_read 0; Call_read 0].
Ltac not_in := let H := fresh in intro H; repeat (destruct H as [H|H]; [discriminate|]); exact H.
Ltac no_occurrence :=
  let e := fresh in let p := fresh in let A := fresh in let B := fresh in let C := fresh in
  intros (e & p & A & B & C); repeat (destruct A as [<-|A]); try contradiction;
  repeat (destruct B as [<-|B]); try contradiction;
  repeat (destruct C as [C|C]; [discriminate|]); contradiction.
Example C86_safe_case :
  no_py_stream C86_calls [C86_epoch] /\ handlers_when_idle false C86_calls /\
  ~ In Call_reset C86_calls /\ ~ In Call_delete C86_calls /\
  (* both workers want the GIL, the Python thread takes an example *)
  (exists s, run 1 (repeat T_main 13 ++ [T_worker 1; T_worker 1; T_worker 0]) (initial C86_calls [C86_epoch]) = Some s /\
     workers s = [mk_worker [R_acquire; R_python; R_release] [W_compute; W_log];
                  mk_worker [R_acquire; R_handler 1; R_release] [W_put; W_compute]] /\
     main s = [M_take; M_acquire; M_python; M_python; M_python; M_release; M_acquire; M_python;
               M_release; M_start; M_take; M_acquire; M_python; M_release; M_start; M_take; M_acquire; M_python]).
Proof.
  split; [split; [no_occurrence|not_in]|].
  split; [cbn; tauto|]. split; [not_in|]. split; [not_in|].
  eexists. split; [vm_compute; reflexivity|]. split; reflexivity.
Qed.

(* Two epochs, without a handler. *)
Definition C86_quiet : list (list wop) := [[W_compute; W_log; W_put]; [W_put; W_log; W_put; W_compute]].
Definition C86_resets : list call := [Call_read 0; Call_reset; Call_read 0; Call_read 0; Call_delete].
Example C86_reset_case :
  no_py_stream C86_resets [C86_quiet; C86_quiet] /\ handlers_when_idle false C86_resets /\ silent C86_resets [C86_quiet; C86_quiet] /\
  exists s, run 1 [T_main; T_main; T_worker 1; T_worker 1; T_main; T_main; T_main; T_main; T_quit 0; T_worker 1; T_quit 1; T_main]
    (initial C86_resets [C86_quiet; C86_quiet]) = Some s /\ workers s = [].
Proof.
  split; [split; [no_occurrence|not_in]|]. split; [cbn; tauto|].
  split; [split; [no_occurrence|right; not_in]|].
  eexists. split; [vm_compute; reflexivity|]. reflexivity.
Qed.

(* C86 fails for reset() and for the deletion of a reader while a background thread is about to call Python: the Python thread
   waits for the background thread and keeps the GIL, for which the background thread waits, forever.  Here it logs a
   message to a Python handler (whatever else it and the other threads do), or opens a data store implemented in Python. *)
Theorem C86_reset_refuted : forall cap work rest more last, (0 < cap)%nat ->
  last = Call_reset \/ last = Call_delete ->
  work = W_log \/ work = W_store ->
  exists schedule s,
    run cap schedule (initial [Call_set_handler; Call_read 0; last] ([[W_put; work] ++ rest] :: more)) = Some s /\
    stuck cap s /\ ~ finished s.
Proof.
  intros cap work rest more last C L W. destruct cap as [|cap]; [lia|].
  exists [T_main; T_main; T_main; T_main; T_worker 0; T_main; T_main; T_main; T_worker 0; T_main].
  destruct L as [-> | ->], W as [-> | ->]; cbn; eexists; (split; [reflexivity|]); (split; [|discriminate]);
    intros [|[|[]]|[|[]]]; reflexivity.
Qed.
Print Assumptions C86_reset_refuted.

Example C86_reset_refuted_case :
  handlers_when_idle false [Call_set_handler; Call_read 0; Call_reset] /\
  no_py_stream [Call_set_handler; Call_read 0; Call_reset] [[[W_put; W_log; W_put; W_compute]]].
Proof. split; [cbn; tauto|]. split; [no_occurrence|not_in]. Qed.

(* C86 fails when the log handler is replaced or cleared while the reader is running: a background thread that waits for the GIL to
   call the handler calls the destroyed one. *)
Theorem C86_handler_refuted : forall cap rest more change, (0 < cap)%nat ->
  change = Call_set_handler \/ change = Call_clear_handler ->
  exists schedule,
    run cap schedule (initial [Call_set_handler; Call_read 0; change; Call_read 0] ([[W_put; W_log] ++ rest] :: more)) = None.
Proof.
  intros cap rest more change C H. destruct cap as [|cap]; [lia|].
  exists [T_main; T_main; T_main; T_main; T_worker 0; T_main; T_main; T_main; T_worker 0; T_main; T_main; T_main; T_worker 0; T_worker 0].
  destruct H as [-> | ->]; reflexivity.
Qed.
Print Assumptions C86_handler_refuted.

Example C86_handler_case :
  no_py_stream [Call_set_handler; Call_read 0; Call_set_handler; Call_read 0] [[[W_put; W_log; W_put]]].
Proof. split; [no_occurrence|not_in]. Qed.

(* C86 fails for every read from a stream implemented in Python, in a background thread ... *)
Theorem C86_stream_refuted : forall cap s i todo,
  nth_error (workers s) i = Some (mk_worker [] (W_stream :: todo)) -> gil s <> Worker i ->
  run cap [T_worker i; T_worker i] s = None.
Proof.
  intros cap s i todo E G. cbn [run step]. rewrite E. cbn [worker_step w_frame w_todo].
  cbn [with_worker workers]. rewrite (nth_set_same _ _ _ _ _ E). unfold worker_step.
  cbn [w_frame w_todo stream_frame]. cbn [with_worker gil].
  destruct (holds (gil s) i) eqn:H; [|reflexivity]. apply holds_true in H. contradiction.
Qed.
Print Assumptions C86_stream_refuted.

Example C86_stream_case : exists s,
  run 1 [T_main; T_main] (initial [Call_read 0] [[[W_stream; W_put]]]) = Some s /\
  nth_error (workers s) 0 = Some (mk_worker [] [W_stream; W_put]) /\ gil s <> Worker 0.
Proof. eexists. split; [reflexivity|]. split; [reflexivity|discriminate]. Qed.

(* ... and in the Python thread. *)
Theorem C86_stream_call_refuted : forall cap calls epochs, run cap [T_main; T_main; T_main] (initial (Call_py_stream :: calls) epochs) = None.
Proof. reflexivity. Qed.
Print Assumptions C86_stream_call_refuted.

Example C86_stream_call_case : run 1 [T_main; T_main] (initial [Call_py_stream] []) <> None.
Proof. discriminate. Qed.
