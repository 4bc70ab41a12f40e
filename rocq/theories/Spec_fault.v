(* A data store that cannot be read to its end, and what is left of the dataset before the fault. *)
From Coq Require Import Permutation.
From Verif Require Import Common Model_rec Model_inst Spec_inst Model_par Spec_par Model_text Spec_text.

(* The store has some good instances and then the error x: it cannot be opened, its record reader throws (between two
   instances or inside a split record), or its records do not fit together. *)
Inductive failing (d : store) : list instance -> exn -> Prop :=
| f_open x : sopen d = Throw x -> failing d [] x
| f_read rs ps x : sopen d = Ok (Some (rs, Throw x)) -> groups rs ps -> failing d (numbered (sid d) ps) x
| f_split rs ps bad x : sopen d = Ok (Some (rs ++ bad, Throw x)) -> groups rs ps -> truncated bad ->
    failing d (numbered (sid d) ps) x
| f_kinds rs ps bad e : sopen d = Ok (Some (rs ++ bad, e)) -> groups rs ps -> broken bad ->
    failing d (numbered (sid d) ps) Corrupt_record.

(* The dataset: good stores, a failing one, and any others; xs are the instances before the fault. *)
Definition faulty (ds : list store) (xs : list instance) (x : exn) : Prop :=
  exists pre iss d is post, ds = pre ++ d :: post /\ Forall2 store_instances pre iss /\ failing d is x /\
    xs = concat iss ++ is.

(* The range ends before the fault. *)
Definition out_of_range (p : rd_params) (xs : list instance) : Prop := range_full (p_skip p) (p_take p) xs = true.

(* What is selected of the instances before the fault.  Sampling works on blocks of one hundred; of the block with the fault
   nothing is kept. *)
Definition selected_before (p : rd_params) (xs ys : list instance) : Prop :=
  let a := range_of (p_skip p) (p_take p) xs in
  let b := if 1 <? p_num_shards p then shard_of (p_shard_index p) (p_num_shards p) a else a in
  match p_ratio p with
  | None => ys = b
  | Some r => exists keep, (forall n, n <= 100 -> num_keep r n = Ok (keep n)) /\
      sample_of keep (firstn (100 * (length b / 100)) b) ys
  end.

(* What comes out of the shuffling window before the fault is met; the instances in the window are lost. *)
Definition ordered_before (p : rd_params) (ys zs : list instance) : Prop :=
  if p_shuffle p then
    exists lost, Permutation (zs ++ lost) ys /\ displaced (p_window p) ys zs /\
      (if p_window p =? 0 then zs = [] else length lost = min (length ys) (p_window p - 1))
  else zs = ys.

(* The ratio keeps at least one instance of every block of one hundred (below, reading ends early: C18). *)
Definition keeps_some (r : f32) : Prop := exists k, num_keep r 100 = Ok (S k).

(* As fed_by, for a reader whose first instance, if it was looked at, could be read. *)
Inductive epoch_begins {A} (M : machine A) : nat -> nat * bstate M -> Prop :=
| eb_first n : Forall (fun r => exists x, r = Ok (Some x)) (fst (run M (b_init M) (repeat Peek n))) ->
    epoch_begins M 0 (0, snd (run M (b_init M) (repeat Peek n)))
| eb_later e s n : Forall (fun r => exists x, r = Ok (Some x)) (fst (run M (b_reset M s) (repeat Peek n))) ->
    epoch_begins M (S e) (0, snd (run M (b_reset M s) (repeat Peek n))).
Definition fed_well {A} (M : machine A) (size : nat) (last : last_handling)
    (src : nat -> list (batch A)) (src_end : nat -> option exn) : Prop :=
  forall e, exists st, epoch_begins M e st /\
    reads_as (batch_reader size last M) (None, st) (src e)
      (match src_end e with None => Ok tt | Some x => Throw x end).

(* The records of the file end inside a split record and the file ends there: the one damage that is not reported (C23, C24). *)
Definition cut_in_split (d : store) : Prop :=
  exists rs ps bad, sopen d = Ok (Some (rs ++ bad, Ok tt)) /\ groups rs ps /\ truncated bad.
