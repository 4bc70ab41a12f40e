(* C115: the readers that Model_iter.v assumes are those of the library. *)
From Verif Require Import Common Model_par Spec_par Props_par Model_iter Spec_iter2 Proof_iter4.
From Coq Require Import List Arith.
Import ListNotations.

(* In every run of the pipeline the k-th call of an epoch got what the k-th read of a dataset as in Model_iter.v gets: the items of
   this dataset are the examples es, the first of those that one thread would decode, and all of them if end of data was
   reported; what follows is the end, or an error that a batch of the epoch does cause. *)
Theorem C115_readers : forall (B E : Type) (decode : B -> dres E) size src src_end cores np pr prefetch reads,
  graph_params cores np pr = (prefetch, reads) -> 1 <= cores ->
  forall s, reachable decode size src src_end prefetch reads s ->
  exists es rest d, ds_items d (epoch s) = seq 0 (length es) /\ es ++ rest = sequential decode (src (epoch s)) /\
    (In O_end (log s) -> rest = []) /\
    (forall x, ds_tail d (epoch s) = Some x -> error_of decode src src_end (epoch s) x) /\
    forall k o, nth_error (log s) k = Some o -> same_out es (fst (core_read d (epoch s) k)) o.
Proof.
  intros B E decode size src src_end cores np pr prefetch reads G C s R.
  destruct (pipeline_is_reader B E decode size src src_end cores np pr prefetch reads G C s R) as (es & rest & tail & P & Q & Er & K).
  exists es, rest, (numbered_ds (length es) tail). split; [reflexivity|]. split; [auto|]. split; [|split; [exact Er|exact K]].
  intros I. destruct tail as [x|]; [|auto]. exfalso.
  exact (C29_errors_surface B E decode size src src_end cores np pr prefetch reads G C s x R (Er x eq_refl) I).
Qed.
Print Assumptions C115_readers.

(* An epoch that ends with an error. *)
Example C115_case_readers : graph_params 1 1 1 = (1, 1) /\
  option_map log (ex_run 1 1 [1; 9] ([A_read] ++ ex_batch 0 ++
     [C_wake; C_notify; T_source; T_limit; T_dstart 1; T_dfinish 1; T_done; A_read; C_wake; A_read; C_wake]))
  = Some [O_example 11; O_error Invalid_instance; O_error Invalid_instance] /\
  let d := mk_ds (fun _ => seq 0 1) (fun _ => Some Invalid_instance) in
  Forall2 (same_out [11]) (map (fun k => fst (core_read d 0 k)) [0; 1; 2])
    [O_example 11; O_error Invalid_instance; O_error Invalid_instance].
Proof. repeat split; try (vm_compute; reflexivity). repeat constructor. Qed.
