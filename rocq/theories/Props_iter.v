(* C115: iterating over readers in Python. *)
From Verif Require Import Common Model_iter Spec_iter Proof_iter Proof_iter2 Proof_iter3.
From Coq Require Import List Arith Lia Bool.
Import ListNotations.

Definition three : dataset := mk_ds (fun ep => if ep =? 0 then [7; 8; 9] else [5; 6]) (fun _ => None).
Definition torn : dataset := mk_ds (fun _ => [7]) (fun _ => Some Corrupt_record).

(* Every program sees what it sees in a world where readers have a position in their data, iterators read from their
   reader, and nothing is ever destroyed: in particular no call meets an object that was destroyed. *)
Theorem C115_meaning : forall p, exists s, run st0 p = Ok (s, meanings world0 p).
Proof. intros p. destruct (run_rel p _ _ rel0) as (s & E & _). eauto. Qed.
Print Assumptions C115_meaning.

(* Two iterators, a peek and a read share one position; the variable of the reader is deleted in between. *)
Example C115_case_meaning :
  let p := [S_new 0 true three; S_iter 1 0; S_iter 2 0; S_peek 0; S_next 1; S_read 0; S_del 0; S_next 2; S_next 1; S_next 0] in
  rmap snd (run st0 p) = Ok [V_nothing; V_nothing; V_nothing; V_item 7; V_item 7; V_item 8; V_nothing; V_item 9; V_stop; V_name_error].
Proof. reflexivity. Qed.

(* for x in reader: every item of a new reader once and in order, and then the end of the loop or the reader's error. *)
Theorem C115_loop : forall data d k, exists s,
  run st0 (S_new 0 data d :: S_iter 1 0 :: repeat (S_next 1) (length (ds_items d 0) + k)) =
  Ok (s, V_nothing :: V_nothing :: map V_item (ds_items d 0) ++
         repeat (match ds_tail d 0 with None => V_stop | Some x => V_raise x end) k).
Proof.
  intros data d k. destruct (C115_meaning (S_new 0 data d :: S_iter 1 0 :: repeat (S_next 1) (length (ds_items d 0) + k))) as (s & E).
  exists s. rewrite E. do 2 f_equal. rewrite !meanings_cons. cbn [meaning snd fst]. f_equal. f_equal.
  apply (loop_all data d (ds_items d 0) [] k); [|reflexivity]. split; reflexivity.
Qed.
Print Assumptions C115_loop.

Example C115_case_loop : rmap snd (run st0 [S_new 0 false torn; S_iter 1 0; S_next 1; S_next 1; S_next 1]) =
  Ok [V_nothing; V_nothing; V_item 7; V_raise Corrupt_record; V_raise Corrupt_record].
Proof. reflexivity. Qed.

(* An object exists exactly as long as a variable refers to it or, for a reader, to an iterator over it. *)
Theorem C115_kept : forall p s l i, run st0 p = Ok (s, l) ->
  (look (s_heap s) i <> None <->
   exists v j, get_var (s_env s) v = Some j /\ (j = i \/ exists n q, look (s_heap s) j = Some (mk_cell n (O_iter q i)))).
Proof.
  intros p s l i E. destruct (run_rel p _ _ rel0) as (s' & E' & R). rewrite E' in E. injection E as <- <-.
  eapply live_iff; eauto.
Qed.
Print Assumptions C115_kept.

(* The reader goes with the last iterator. *)
Example C115_case_kept :
  let p := [S_new 0 true three; S_iter 1 0; S_del 0] in
  rmap (fun a => map (fun c => match c with Some _ => true | None => false end) (s_heap (fst a))) (run st0 p) = Ok [true; true] /\
  rmap (fun a => s_heap (fst a)) (run st0 (p ++ [S_del 1])) = Ok [None; None].
Proof. split; reflexivity. Qed.

(* An iterator that has raised StopIteration raises it again, as Python demands of iterators, unless some reader is reset. *)
Theorem C115_exhausted_partial : forall p q v s l1 l2 x,
  run st0 (p ++ S_next v :: q ++ [S_next v]) = Ok (s, l1 ++ V_stop :: l2 ++ [x]) ->
  length l1 = length p -> length l2 = length q ->
  forallb no_reset q = true -> existsb (assigns v) q = false -> x = V_stop.
Proof.
  intros p q v s l1 l2 x E L1 L2 NR NA. destruct (C115_meaning (p ++ S_next v :: q ++ [S_next v])) as (s' & E').
  rewrite E' in E. injection E as _ E. rewrite meanings_app in E. rewrite meanings_cons, meanings_app, meanings_one in E.
  assert (A : meanings world0 p = l1 /\
    snd (meaning (world_after world0 p) (S_next v)) ::
      meanings (fst (meaning (world_after world0 p) (S_next v))) q ++
      [snd (meaning (world_after (fst (meaning (world_after world0 p) (S_next v))) q) (S_next v))] = V_stop :: l2 ++ [x]).
  { apply app_inj_len; [rewrite meanings_len; auto|exact E]. }
  destruct A as [_ A]. injection A as A1 A2.
  apply app_inj_len in A2; [|rewrite meanings_len; auto]. destruct A2 as [_ A2].
  injection A2 as <-.
  apply spent_next. apply spent_keeps; auto. apply next_spent. exact A1.
Qed.
Print Assumptions C115_exhausted_partial.

Example C115_case_exhausted : rmap snd (run st0
   ([S_new 0 true torn; S_new 0 true (mk_ds (fun _ => []) (fun _ => None)); S_iter 1 0] ++
    S_next 1 :: [S_iter 2 0; S_next 2; S_read 0; S_del 0] ++ [S_next 1])) =
  Ok ([V_nothing; V_nothing; V_nothing] ++ V_stop :: [V_nothing; V_stop; V_none; V_nothing] ++ [V_stop]).
Proof. reflexivity. Qed.

(* With a reset it yields items again. *)
Theorem C115_exhausted_refuted : exists p q v s l1 l2 x,
  run st0 (p ++ S_next v :: q ++ [S_next v]) = Ok (s, l1 ++ V_stop :: l2 ++ [x]) /\
  length l1 = length p /\ length l2 = length q /\ existsb (assigns v) q = false /\ x <> V_stop.
Proof.
  exists [S_new 0 true three; S_iter 1 0; S_next 1; S_next 1; S_next 1], [S_reset 0], 1.
  destruct (C115_meaning ([S_new 0 true three; S_iter 1 0; S_next 1; S_next 1; S_next 1] ++ S_next 1 :: [S_reset 0] ++ [S_next 1])) as (s & E).
  exists s, [V_nothing; V_nothing; V_item 7; V_item 8; V_item 9], [V_nothing], (V_item 5).
  rewrite E. repeat split. discriminate.
Qed.
Print Assumptions C115_exhausted_refuted.

(* Several Python threads that read from one data reader, each call alone: the k-th call to return has the k-th item, and
   those after the last item have none. *)
Theorem C115_threads_partial : forall n peeked batches sched,
  Forall (fun b => b <> []) batches -> one_at_a_time (ready n peeked batches) sched ->
  exists t, trun (ready n peeked batches) sched = Ok t /\
    forall k x, nth_error (t_results t) k = Some x -> x = nth_error (all_items peeked batches) k.
Proof.
  intros n peeked batches sched NE O.
  destruct (trun_alone _ sched _ (ready_alone n peeked batches NE) O) as (t & E & A). exists t. split; auto.
  apply (al_results _ _ A).
Qed.
Print Assumptions C115_threads_partial.

Definition turns : list nat :=
  repeat 0 4 ++ repeat 1 8 ++ repeat 0 8 ++ repeat 1 6 ++ repeat 0 6.
Example C115_case_threads :
  one_at_a_time (ready 2 (Some 4) [[5]; [6]]) turns /\
  rmap t_results (trun (ready 2 (Some 4) [[5]; [6]]) turns) = Ok [Some 4; Some 5; Some 6; None; None].
Proof.
  split; [|reflexivity]. unfold turns. cbn [repeat app].
  repeat (split; [intros H; first [reflexivity | discriminate H] | intros t' H; cbn in H; injection H as <-]). exact I.
Qed.

(* Nothing makes threads call one at a time: the GIL is released during the call.  Then one of two iterators ends in the
   middle of the data, and an item reaches nobody; *)
Theorem C115_threads_refuted : exists sched t,
  trun (ready 2 None [[1; 2; 3]]) sched = Ok t /\ t_results t = [Some 1; None] /\ t_queue t = [Some 3] /\ t_fill t = [] /\
  t_peeked t = None /\ t_pcs t = [P_idle; P_idle].
Proof.
  exists ([0;0;0;0;0] ++ [1;1;1] ++ [0;1;0;1;0;1]), (mk_t None [Some 3] [] [P_idle; P_idle] [Some 1; None]). repeat split.
Qed.
Print Assumptions C115_threads_refuted.

(* or the reader takes an item from an empty queue. *)
Theorem C115_threads_crash_refuted : exists sched, trun (ready 2 None [[1]]) sched = UB.
Proof. exists ([0;0;0;0;0] ++ [1;1;1] ++ [0;0] ++ [1]). reflexivity. Qed.
Print Assumptions C115_threads_crash_refuted.

(* Likewise for an example that was peeked. *)
Theorem C115_threads_peeked_refuted : exists sched t,
  trun (ready 2 (Some 1) [[2]]) sched = Ok t /\ t_results t = [Some 1; None] /\ t_fill t = [[Some 2]].
Proof. exists [0; 0; 1; 1; 0; 1; 0; 1], (mk_t None [] [[Some 2]] [P_idle; P_idle] [Some 1; None]). repeat split. Qed.
Print Assumptions C115_threads_peeked_refuted.
